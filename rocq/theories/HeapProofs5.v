(** Property-level lemmas for the heap. *)
From Coq Require Import Permutation.
From Verif Require Export HeapProofs4.

Lemma permittedb_ok l o : permittedb l o = true -> permitted l o.
Proof.
  destruct o as [n|num size|p| |b|a v]; cbn [permittedb permitted]; unfold is_size; auto.
  - lia.
  - lia.
  - intros H. apply orb_true_iff in H. destruct H as [H|H]; [left; lia|right].
    apply existsb_exists in H. destruct H as (b & I & E). exists b. split; [exact I|lia].
  - intros H. apply andb_true_iff in H. destruct H as [V H]. split; [lia|].
    apply existsb_exists in H. destruct H as (b & I & E). exists b. split; [exact I|lia].
Qed.

Lemma run_session c ops : forall h l evs h' l',
  run c h l ops = Some (evs, h', l') -> session c h l evs h' l'.
Proof.
  induction ops as [|o ops IH]; intros h l evs h' l'; cbn.
  - intros [= <- <- <-]. constructor.
  - destruct (permittedb l o) eqn:P; [|discriminate].
    destruct (apply c h o) as [[h1 r]| |] eqn:A; try discriminate.
    destruct (run c h1 _ ops) as [[[evs' h2] l2]|] eqn:RN; [|discriminate].
    intros [= <- <- <-]. econstructor; [apply permittedb_ok, P|exact A|apply IH, RN].
Qed.

Section Reach.
Context (c : cfg) (PL : placed c) (RM : roomy c).
Let G : geo c := placed_geo c PL RM.

Lemma held_range h l b :
  inv c h l -> In b l ->
  area_start c + 16 <= hd_ptr b /\ hd_ptr b mod 8 = 0 /\ 0 < hd_req b /\
  hd_ptr b + hd_req b <= hd_ptr b - 16 + hd_fp b /\ hd_ptr b - 16 + hd_fp b <= area_end c /\
  needed (hd_req b) <= hd_fp b <= needed (hd_req b) + 32.
Proof.
  intros (bl & R & C) I. pose proof (corr_in _ _ _ C I) as BI.
  pose proof (corr_good _ _ _ C I) as (GR & GN). pose proof (needed_bounds _ GR).
  pose proof (tiles_in _ _ _ _ (r_tiles _ _ _ (r_mem _ _ _ R)) (g_startmod c G) BI). cbn in *. lia.
Qed.

Lemma inv_nodup h l : inv c h l -> NoDup (map hd_ptr l).
Proof.
  intros (bl & R & C). pose proof (r_tiles _ _ _ (r_mem _ _ _ R)) as T.
  assert (ND : NoDup (map fst (useds bl))).
  { clear - T G. pose proof (g_startmod c G) as M. revert T M. generalize (area_start c).
    induction bl as [|d bl IH]; intros s T M; cbn [useds map]; [constructor|].
    cbn [tiles] in T. destruct T as (A1 & A2 & A3 & T).
    assert (M' : (s + b_len d) mod 8 = 0) by lia.
    destruct (b_used d); cbn [map fst]; [|eauto]. constructor; [|eauto].
    intros I. apply in_map_iff in I. destruct I as ([x t] & E & I). cbn in E. subst x.
    apply in_useds in I. pose proof (tiles_in _ _ _ _ T M' I). cbn in *. lia. }
  apply (Permutation_NoDup (Permutation_map fst (co_perm _ _ C))) in ND.
  clear - ND. induction l as [|b l IH]; cbn in *; [constructor|].
  inversion ND as [|? ? NI ND']; subst. constructor; [|auto].
  intros I. apply NI. apply in_map_iff in I. destruct I as (b' & E & I).
  rewrite map_map. apply in_map_iff. exists b'. split; [|exact I].
  unfold ent, region_start. cbn. lia.
Qed.

Lemma held_disjoint h l b1 b2 :
  inv c h l -> In b1 l -> In b2 l -> hd_ptr b1 <> hd_ptr b2 ->
  disjoint (hd_ptr b1 - 16) (hd_fp b1) (hd_ptr b2 - 16) (hd_fp b2).
Proof.
  intros (bl & R & C) I1 I2 NE.
  pose proof (tiles_sep _ _ _ _ _ (r_tiles _ _ _ (r_mem _ _ _ R)) (corr_in _ _ _ C I1) (corr_in _ _ _ C I2)) as [E|S].
  - injection E as E _. lia.
  - exact S.
Qed.

Lemma inv_pairwise h l :
  inv c h l ->
  ForallOrdPairs (fun b1 b2 => disjoint (hd_ptr b1) (hd_req b1) (hd_ptr b2) (hd_req b2)) l.
Proof.
  intros I. pose proof (inv_nodup _ _ I) as ND.
  assert (K : forall b1 b2, In b1 l -> In b2 l -> hd_ptr b1 <> hd_ptr b2 ->
              disjoint (hd_ptr b1) (hd_req b1) (hd_ptr b2) (hd_req b2)).
  { intros b1 b2 I1 I2 NE. pose proof (held_disjoint _ _ _ _ I I1 I2 NE).
    pose proof (held_range _ _ _ I I1). pose proof (held_range _ _ _ I I2).
    unfold disjoint in *. lia. }
  clear I. induction l as [|b l IH]; [constructor|].
  inversion ND as [|? ? NI ND']; subst. constructor.
  - apply Forall_forall. intros b2 I2. apply K; [left; reflexivity|right; exact I2|].
    intros E. apply NI. rewrite E. apply in_map, I2.
  - apply IH; [exact ND'|]. intros b1 b2 I1 I2. apply K; right; assumption.
Qed.

(** C01 *)
Lemma new_block l h' r n f :
  inv c h' (Held r n f :: l) -> r mod 8 = 0 /\ c_base c <= r /\ r + n <= c_base c + c_size c /\
  forall b, In b l -> disjoint r n (hd_ptr b) (hd_req b).
Proof.
  intros I. pose proof (held_range _ _ _ I (or_introl eq_refl)) as HR. cbn in HR.
  pose proof (inv_pairwise _ _ I) as P. inversion P as [|? ? F _]; subst. rewrite Forall_forall in F.
  geo_facts G. repeat split; try lia. intros b B. apply (F b B).
Qed.

Lemma alloc_block h l n h' r :
  reachable c h l -> is_size n -> allocate c h n = Ok (h', r) -> r <> 0 ->
  r mod 8 = 0 /\ c_base c <= r /\ r + n <= c_base c + c_size c /\
  forall b, In b l -> disjoint r n (hd_ptr b) (hd_req b).
Proof.
  intros R N A NZ. apply (inv_reachable _ _ _ G) in R.
  destruct (inv_alloc c h l n G R N) as (h1 & r1 & A1 & I1 & _).
  rewrite A in A1. injection A1 as <- <-.
  destruct (Z.eqb_spec r 0); [contradiction|]. eapply new_block; eassumption.
Qed.

(** C02 *)
Lemma keep_bytes h l o h' r b x :
  reachable c h l -> permitted l o -> apply c h o = Ok (h', r) -> is_write o = false ->
  In b l -> In b (hold l o r (free_heap_size h) (free_heap_size h')) ->
  hd_ptr b <= x < hd_ptr b + hd_req b -> h_mem h' x = h_mem h x.
Proof.
  intros R P A W I I' X. apply (inv_reachable _ _ _ G) in R.
  pose proof (held_range _ _ _ R I) as HR.
  destruct o as [n|num size|p| |bb|a v]; cbn [permitted apply hold is_write] in *.
  - destruct (inv_alloc c h l n G R P) as (h1 & r1 & A1 & I1 & Z0 & NZ).
    rewrite A in A1. injection A1 as <- <-.
    destruct (Z.eq_dec r 0) as [E|E].
    + rewrite (Z0 E). unfold fired. destruct (h_cb h); reflexivity.
    + destruct (NZ E) as (_ & _ & _ & _ & _ & _ & FR). apply (FR b); [exact I|lia].
  - destruct P as [P1 P2].
    destruct (inv_calloc c h l num size G R P1 P2) as (h1 & r1 & A1 & I1 & Z0 & NZ).
    rewrite A in A1. injection A1 as <- <-.
    destruct (Z.eq_dec r 0) as [E|E].
    + rewrite (Z0 E). destruct (num * size <? W64); [|reflexivity].
      unfold fired. destruct (h_cb h); reflexivity.
    + destruct (NZ E) as (_ & _ & _ & _ & _ & _ & _ & FR). apply (FR b); [exact I|lia].
  - destruct P as [->|(b' & BI & <-)].
    + cbn in A. injection A as <- _. reflexivity.
    + destruct (inv_free c h l b' G R BI) as (h1 & A1 & _ & _ & _ & _ & _ & _ & _ & FR).
      rewrite A1 in A. cbn in A. injection A as <- _.
      apply filter_In in I'. destruct I' as [_ NE].
      apply (FR b); [exact I| |lia]. destruct (Z.eqb_spec (hd_ptr b) (hd_ptr b')); [discriminate NE|assumption].
  - injection A as <- _. reflexivity.
  - injection A as <- _. reflexivity.
  - discriminate W.
Qed.

Lemma write_byte h l a v h' r :
  apply c h (Write a v) = Ok (h', r) -> permitted l (Write a v) ->
  h_mem h' a = v /\ forall x, x <> a -> h_mem h' x = h_mem h x.
Proof.
  cbn. unfold client_write. destruct ((c_base c <=? a) && (a <? c_base c + c_size c)); [|discriminate].
  cbn. intros [= <- _] _. cbn. unfold upd. rewrite Z.eqb_refl. split; [reflexivity|].
  intros x N. destruct (Z.eqb_spec x a); [contradiction|reflexivity].
Qed.

(** C03 *)
Lemma accounting h l h0 :
  reachable c h l -> construct c = Ok h0 ->
  free_heap_size h + total_footprint l = free_heap_size h0 /\
  (forall b, In b l -> needed (hd_req b) <= hd_fp b <= needed (hd_req b) + 32).
Proof.
  intros R E. apply (inv_reachable _ _ _ G) in R. split.
  - destruct R as (bl & R & C). destruct (construct_spec c G (g_size c G)) as (m & E' & _).
    rewrite E in E'. injection E' as ->. unfold free_heap_size. cbn [h_free].
    rewrite (r_free _ _ _ R). rewrite <- (sums _ _ _ (r_tiles _ _ _ (r_mem _ _ _ R))).
    rewrite used_sum_useds. rewrite (fold_add_perm _ _ (Permutation_map snd (co_perm _ _ C))).
    unfold total_footprint. rewrite map_map. cbn. reflexivity.
  - intros b I. apply (held_range _ _ _ R I).
Qed.

(** C05 *)
Lemma tiles_point bl : forall s e x, tiles s bl e -> s <= x < e ->
  exists l1 b l2, bl = l1 ++ b :: l2 /\ b_addr b <= x < b_addr b + b_len b.
Proof.
  induction bl as [|b bl IH]; intros s e x T X; cbn [tiles] in T; [lia|].
  destruct T as (A & B & C & T). destruct (Z_lt_ge_dec x (s + b_len b)).
  - exists [], b, bl. split; [reflexivity|lia].
  - destruct (IH _ _ x T ltac:(lia)) as (l1 & b' & l2 & -> & Y). exists (b :: l1), b', l2. auto.
Qed.

Lemma window_in_free bl l a n :
  mrepr c (fun _ => 0) bl \/ (tiles (area_start c) bl (area_end c) /\ no_adj bl) ->
  tiles (area_start c) bl (area_end c) -> no_adj bl -> corr bl l -> 0 < n ->
  free_window c l a n ->
  exists q t, In (q, t) (frees bl) /\ q <= a /\ a + needed n <= q + t.
Proof.
  intros _ T NA C N (W1 & W2 & W3). pose proof (needed_bounds _ N) as NB.
  destruct (tiles_point bl _ _ a T ltac:(lia)) as (l1 & b & l2 & E & X).
  assert (USED : forall b', In b' bl -> b_used b' = true ->
            disjoint a (needed n) (b_addr b') (b_len b')).
  { intros [qa qt qu] I U. cbn in U. subst qu. destruct (corr_out _ _ _ _ C I) as (d & D1 & D2 & D3).
    specialize (W3 d D1). unfold region_start in W3. cbn. rewrite D2, D3 in W3.
    replace (qa + 16 - 16) with qa in W3 by lia. exact W3. }
  assert (BI : In b bl) by (rewrite E; apply in_elt).
  pose proof (tiles_in _ _ _ _ T (g_startmod c G) BI) as BR.
  destruct b as [q t us]. cbn [b_addr b_len] in *. destruct us.
  { specialize (USED _ BI eq_refl). unfold disjoint in USED. cbn in USED. lia. }
  exists q, t. split; [apply in_frees; exact BI|]. split; [lia|].
  destruct (Z_le_gt_dec (a + needed n) (q + t)) as [|GT]; [assumption|exfalso].
  rewrite E in T, NA. pose proof (tiles_mid _ _ _ _ _ T) as (_ & _ & _ & T2). cbn [b_addr b_len] in T2.
  destruct l2 as [|b2 l2]; cbn [tiles] in T2; [lia|].
  apply no_adj_mid in NA. destruct NA as [_ [U _]]. cbn [b_used orb] in U.
  assert (I2 : In b2 bl) by (rewrite E; apply in_or_app; right; right; left; reflexivity).
  specialize (USED _ I2 U). unfold disjoint in USED. lia.
Qed.

Lemma free_is_window bl l q t n :
  tiles (area_start c) bl (area_end c) -> corr bl l -> 0 < n ->
  In (Blk q t false) bl -> needed n <= t -> free_window c l q n.
Proof.
  intros T C N I L. pose proof (tiles_in _ _ _ _ T (g_startmod c G) I) as IR. cbn in IR.
  split; [lia|]. split; [lia|].
  intros b B. pose proof (corr_in _ _ _ C B) as BI.
  pose proof (tiles_sep _ _ _ _ _ T I BI) as [E|S]; [discriminate E|].
  unfold disjoint, region_start. cbn in S. lia.
Qed.

Lemma first_fit h l n h' r :
  reachable c h l -> is_size n -> allocate c h n = Ok (h', r) ->
  (r <> 0 <-> 0 < n /\ needed n < W64 /\ exists a, free_window c l a n) /\
  (r <> 0 -> free_window c l (r - 16) n /\ forall a, free_window c l a n -> r - 16 <= a).
Proof.
  intros R N A. apply (inv_reachable _ _ _ G) in R. destruct R as (bl & R & C).
  pose proof (allocate_spec c h bl n G R N) as AS. unfold a_alloc in AS.
  pose proof (r_tiles _ _ _ (r_mem _ _ _ R)) as T. pose proof (r_noadj _ _ _ (r_mem _ _ _ R)) as NA.
  destruct (0 <? n) eqn:N0; cbn [andb] in AS.
  2:{ rewrite A in AS. injection AS as _ ->. split; [split; [intros X; contradiction X; reflexivity|lia]|].
      intros X; contradiction X; reflexivity. }
  assert (NP : 0 < n) by lia. pose proof (needed_bounds _ NP) as NB.
  assert (WB : forall a, free_window c l a n -> needed n < 2 ^ 63).
  { intros a (W1 & W2 & _). geo_facts G. lia. }
  destruct (needed n <? 2 ^ 63) eqn:N63.
  2:{ rewrite A in AS. injection AS as _ ->. split; [split; [intros X; contradiction X; reflexivity|]|].
      - intros (_ & _ & a & W). specialize (WB _ W). lia.
      - intros X; contradiction X; reflexivity. }
  destruct (a_take (needed n) bl) as [[bl' a]|] eqn:TK.
  - destruct AS as (h1 & l1 & s & l2 & AE & R' & E1 & E2 & WS & SM & _).
    rewrite A in AE. injection AE as _ ->.
    assert (IB : In (Blk a s false) bl) by (rewrite E1; apply in_elt).
    pose proof (tiles_in _ _ _ _ T (g_startmod c G) IB) as IR. cbn in IR.
    assert (W : free_window c l a n) by (eapply free_is_window; eassumption).
    replace (a + 16 - 16) with a by lia.
    split; [split; [intros _; repeat split; [lia|rewrite W64_val; lia|exists a; exact W]|intros _; geo_facts G; lia]|].
    intros _. split; [exact W|]. intros a' W'.
    destruct (window_in_free bl l a' n (or_intror (conj T NA)) T NA C NP W') as (q & t & F & Q1 & Q2).
    rewrite E1, frees_app in F. apply in_app_or in F. destruct F as [F|F].
    + specialize (SM _ _ F). lia.
    + cbn [frees b_used b_addr b_len] in F. destruct F as [F|F]; [injection F as <- <-; lia|].
      rewrite E1 in T. pose proof (tiles_mid _ _ _ _ _ T) as (T1 & _ & _ & T2). cbn [b_addr b_len] in T2.
      apply in_frees in F. assert (M2 : (a + s) mod 8 = 0) by lia.
      pose proof (tiles_in _ _ _ _ T2 M2 F). cbn in *. lia.
  - rewrite A in AS. injection AS as _ ->.
    split; [split; [intros X; contradiction X; reflexivity|]|intros X; contradiction X; reflexivity].
    intros (_ & _ & a & W). exfalso.
    destruct (window_in_free bl l a n (or_intror (conj T NA)) T NA C NP W) as (q & t & F & Q1 & Q2).
    apply frees_split in F || idtac.
    assert (X : forall k, (forall x y, In (x, y) (frees k) -> y < needed n) \/
                          (exists x y, In (x, y) (frees k) /\ needed n <= y)).
    { intros k. induction (frees k) as [|[x y] f IH]; [left; intros ? ? []|].
      destruct (Z_lt_ge_dec y (needed n)).
      - destruct IH as [IH|(x' & y' & I & L)]; [left|right; exists x', y'; split; [right; exact I|exact L]].
        intros x' y' [I|I]; [injection I as <- <-; assumption|eauto].
      - right. exists x, y. split; [left; reflexivity|lia]. }
    clear X.
    assert (K : forall k, a_take (needed n) k = None -> In (q, t) (frees k) -> False).
    { induction k as [|b k IH]; cbn [a_take frees]; [intros _ []|].
      destruct (b_used b); cbn [negb andb].
      - destruct (a_take (needed n) k) as [[? ?]|]; [discriminate|]. intros _. apply IH. reflexivity.
      - destruct (needed n <=? b_len b) eqn:L; [discriminate|].
        destruct (a_take (needed n) k) as [[? ?]|]; [discriminate|]. intros _ [I|I].
        + injection I as <- <-. lia.
        + apply IH; [reflexivity|exact I]. }
    exact (K bl TK F).
Qed.

(** C06 *)
Lemma fired_unchanged h : unchanged h (fired h) /\ h_fired (fired h) = h_fired h + (if h_cb h then 1 else 0).
Proof. unfold unchanged, fired. destruct (h_cb h) eqn:E; cbn; repeat split; auto; lia. Qed.

Lemma unchanged_refl h : unchanged h h.
Proof. unfold unchanged. auto 10. Qed.

Lemma alloc_fail h l n h' r :
  reachable c h l -> is_size n -> allocate c h n = Ok (h', r) ->
  (r = 0 -> unchanged h h' /\ h_fired h' = h_fired h + (if h_cb h then 1 else 0)) /\
  (r <> 0 -> h_fired h' = h_fired h /\ h_cb h' = h_cb h).
Proof.
  intros R N A. apply (inv_reachable _ _ _ G) in R.
  destruct (inv_alloc c h l n G R N) as (h1 & r1 & A1 & I1 & Z0 & NZ).
  rewrite A in A1. injection A1 as <- <-. split.
  - intros E. rewrite (Z0 E). apply fired_unchanged.
  - intros E. destruct (NZ E) as (_ & F & CB & _). auto.
Qed.

(** C07 *)
Lemma is_min_cons m f l : is_minimum m l -> is_minimum (Z.min f m) (f :: l).
Proof.
  intros [I L]. split.
  - destruct (Z.min_spec f m) as [[_ ->]|[_ ->]]; [left; reflexivity|right; exact I].
  - intros x [<-|X]; [lia|]. specialize (L x X). lia.
Qed.

Lemma points_step h l o h1 r acc :
  inv c h l -> permitted l o -> apply c h o = Ok (h1, r) ->
  is_minimum (h_min h) acc -> In (h_free h) acc ->
  match o with
  | ResetMin => h_min h1 = h_free h1
  | _ => h_min h1 = Z.min (h_free h1) (h_min h)
  end.
Proof.
  intros I P A M HF.
  assert (MF : h_min h <= h_free h) by (apply M, HF).
  destruct o as [n|num size|p| |b|a v]; cbn [permitted apply] in *.
  - destruct (inv_alloc c h l n G I P) as (h' & r' & A1 & _ & Z0 & NZ).
    rewrite A in A1. injection A1 as <- <-. destruct (Z.eq_dec r 0) as [E|E].
    + rewrite (Z0 E). unfold fired. destruct (h_cb h); cbn; lia.
    + apply NZ, E.
  - destruct P as [P1 P2]. destruct (inv_calloc c h l num size G I P1 P2) as (h' & r' & A1 & _ & Z0 & NZ).
    rewrite A in A1. injection A1 as <- <-. destruct (Z.eq_dec r 0) as [E|E].
    + rewrite (Z0 E). destruct (num * size <? W64); unfold fired; try destruct (h_cb h); cbn; lia.
    + apply NZ, E.
  - destruct P as [->|(b & BI & <-)].
    + cbn in A. injection A as <- _. lia.
    + destruct (inv_free c h l b G I BI) as (h' & A1 & _ & F & MN & _).
      rewrite A1 in A. cbn in A. injection A as <- _. 
      pose proof (held_range _ _ _ I BI). pose proof (needed_bounds (hd_req b)). lia.
  - injection A as <- _. reflexivity.
  - injection A as <- _. cbn. lia.
  - unfold client_write in A. destruct ((c_base c <=? a) && (a <? c_base c + c_size c)); [|discriminate].
    cbn in A. injection A as <- _. cbn. lia.
Qed.

Lemma low_water_gen h l evs h' l' :
  session c h l evs h' l' -> forall acc, inv c h l ->
  is_minimum (h_min h) acc -> In (h_free h) acc ->
  is_minimum (h_min h') (points acc evs).
Proof.
  induction 1 as [|h l o h1 r evs h2 l2 P A S IH]; intros acc I M HF; [exact M|].
  pose proof (points_step _ _ _ _ _ _ I P A M HF) as ST.
  assert (I1 : inv c h1 (hold l o r (h_free h) (h_free h1))).
  { destruct (inv_apply c h l o G I P) as (h1' & r' & A' & I'). rewrite A in A'. injection A' as <- <-. exact I'. }
  assert (MINE : is_minimum (h_min h1) [h_free h1] \/ o <> ResetMin).
  { destruct o; try (right; discriminate). left. rewrite ST. split; [left; reflexivity|].
    intros x [<-|[]]. lia. }
  destruct o; cbn [points];
    try (apply IH; [exact I1|rewrite ST; apply is_min_cons; exact M|left; reflexivity]).
  apply IH; [exact I1| |left; reflexivity].
  destruct MINE as [X|X]; [exact X|contradiction X; reflexivity].
Qed.

Lemma low_water h0 evs h l :
  construct c = Ok h0 -> session c h0 [] evs h l ->
  is_minimum (minimum_ever_free_heap_size h) (points [free_heap_size h0] evs).
Proof.
  intros E S. pose proof (inv_construct c h0 G E) as I.
  apply (low_water_gen _ _ _ _ _ S _ I).
  - destruct (construct_spec c G (g_size c G)) as (m & E' & _). rewrite E in E'. injection E' as ->.
    cbn. split; [left; reflexivity|]. intros x [<-|[]]. lia.
  - left; reflexivity.
Qed.

(** C08 *)
Lemma calloc_zeroed h l num size h' r :
  reachable c h l -> is_size num -> is_size size -> callocate c h num size = Ok (h', r) ->
  (r <> 0 -> num * size < W64 /\ 0 < num * size /\
     (forall x, r <= x < r + num * size -> h_mem h' x = 0) /\
     r mod 8 = 0 /\ c_base c <= r /\ r + num * size <= c_base c + c_size c /\
     forall b, In b l -> disjoint r (num * size) (hd_ptr b) (hd_req b)) /\
  (W64 <= num * size -> r = 0 /\ unchanged h h' /\ h_fired h' = h_fired h) /\
  (r = 0 -> unchanged h h').
Proof.
  intros R A B E. apply (inv_reachable _ _ _ G) in R.
  destruct (inv_calloc c h l num size G R A B) as (h1 & r1 & E1 & I1 & Z0 & NZ).
  rewrite E in E1. injection E1 as <- <-. split; [|split].
  - intros X. destruct (NZ X) as (P & _ & _ & _ & _ & _ & ZE & _).
    destruct (Z.eqb_spec r 0); [contradiction|].
    pose proof (new_block _ _ _ _ _ I1). tauto.
  - intros O. destruct (Z.eq_dec r 0) as [X|X].
    + split; [exact X|]. rewrite (Z0 X). replace (num * size <? W64) with false by lia.
      split; [apply unchanged_refl|reflexivity].
    + destruct (NZ X) as (P & _). lia.
  - intros X. rewrite (Z0 X). destruct (num * size <? W64); [|apply unchanged_refl].
    apply fired_unchanged.
Qed.

(** callocate succeeds exactly when allocate of the product would *)
Lemma calloc_iff h l num size h' r :
  reachable c h l -> is_size num -> is_size size -> callocate c h num size = Ok (h', r) ->
  (r <> 0 <-> 0 < num * size < W64 /\ exists a, free_window c l a (num * size)).
Proof.
  intros R A B E.
  assert (P0 : 0 <= num * size) by (unfold is_size in *; apply Z.mul_nonneg_nonneg; lia).
  destruct (Z_lt_ge_dec (num * size) W64) as [L|L].
  - assert (NS : is_size (num * size)) by (unfold is_size; lia).
    destruct (inv_alloc c h l (num * size) G (inv_reachable _ _ _ G R) NS) as (h1 & r1 & A1 & _).
    pose proof (first_fit _ _ _ _ _ R NS A1) as [FF _].
    unfold callocate in E. rewrite needed_size_mul in E by assumption.
    replace (num * size <? W64) with true in E by lia. cbn [negb] in E.
    rewrite u64_id in E by lia. rewrite A1 in E. cbn [bind] in E.
    assert (RR : r = r1).
    { destruct (r1 =? 0); cbn [negb] in E; [congruence|].
      destruct (memset0 c (h_mem h1) r1 (num * size)); cbn in E; congruence. }
    subst r1. rewrite FF. split.
    + intros (X & Y & W). split; [lia|exact W].
    + intros (X & W). split; [lia|]. split; [|exact W].
      destruct W as (a & W1 & W2 & _). geo_facts G. lia.
  - unfold callocate in E. rewrite needed_size_mul in E by assumption.
    replace (num * size <? W64) with false in E by lia. cbn in E. injection E as _ <-.
    split; [intros X; contradiction X; reflexivity|lia].
Qed.

(** C09 *)
Lemma big_refused h l n h' r :
  reachable c h l -> is_size n -> allocate c h n = Ok (h', r) ->
  2 ^ 63 <= n + 16 \/ free_heap_size h < needed n -> r = 0 /\ unchanged h h'.
Proof.
  intros R N A B. 
  destruct (Z.eq_dec r 0) as [E|E].
  { split; [exact E|]. apply (alloc_fail _ _ _ _ _ R N A), E. }
  exfalso. pose proof (first_fit _ _ _ _ _ R N A) as [[FF _] _]. destruct (FF E) as (NP & _ & a & W).
  pose proof (needed_bounds _ NP) as NB.
  apply (inv_reachable _ _ _ G) in R. destruct R as (bl & R & C).
  pose proof (r_tiles _ _ _ (r_mem _ _ _ R)) as T.
  pose proof (r_noadj _ _ _ (r_mem _ _ _ R)) as NA.
  destruct (window_in_free bl l a n (or_intror (conj T NA)) T NA C NP W) as (q & t & F & Q1 & Q2).
  apply in_frees in F.
  assert (BIG : forall b, In b bl -> 0 <= b_len b).
  { intros b I. pose proof (tiles_in _ _ _ _ T (g_startmod c G) I). lia. }
  pose proof (free_sum_in _ _ _ BIG F) as X. pose proof (free_sum_bound _ _ _ T).
  unfold free_heap_size in B. rewrite (r_free _ _ _ R) in B. geo_facts G. lia.
Qed.

(** C10 *)
Lemma calls_defined h l o :
  reachable c h l -> permitted l o -> exists h' r, apply c h o = Ok (h', r).
Proof.
  intros R P. destruct (inv_apply c h l o G (inv_reachable _ _ _ G R) P) as (h' & r & A & _). eauto.
Qed.

Lemma reachable_step h l o h' r :
  reachable c h l -> permitted l o -> apply c h o = Ok (h', r) ->
  reachable c h' (hold l o r (free_heap_size h) (free_heap_size h')).
Proof.
  intros (h0 & evs & E & S) P A. exists h0, (evs ++ [(o, r, free_heap_size h')]). split; [exact E|].
  clear E. induction S as [|h l o1 h1 r1 evs h2 l2 P1 A1 S IH]; cbn [app].
  - econstructor; [exact P|exact A|constructor].
  - econstructor; [exact P1|exact A1|]. apply IH; assumption.
Qed.

(** C15 *)
Lemma counters_gen h l evs h' l' :
  session c h l evs h' l' -> inv c h l ->
  u64 (h_allocs h - h_frees h) = u64 (Z.of_nat (length l)) ->
  u64 (h_allocs h' - h_frees h') = u64 (Z.of_nat (length l')).
Proof.
  induction 1 as [|h l o h1 r evs h2 l2 P A S IH]; intros I E; [exact E|].
  assert (I1 : inv c h1 (hold l o r (h_free h) (h_free h1))).
  { destruct (inv_apply c h l o G I P) as (h1' & r' & A' & I'). rewrite A in A'. injection A' as <- <-. exact I'. }
  apply IH; [exact I1|]. clear IH S I1. unfold u64 in *.
  destruct o as [n|num size|p| |b|a v]; cbn [permitted apply hold] in *.
  - destruct (inv_alloc c h l n G I P) as (h' & r' & A1 & _ & Z0 & NZ).
    rewrite A in A1. injection A1 as <- <-. destruct (Z.eqb_spec r 0) as [X|X].
    + rewrite (Z0 X). unfold fired. destruct (h_cb h); exact E.
    + destruct (NZ X) as (_ & _ & _ & _ & AL & FE & _). rewrite AL, FE. unfold u64. cbn [length].
      rewrite Zminus_mod_idemp_l.
      replace (h_allocs h + 1 - h_frees h) with (h_allocs h - h_frees h + 1) by lia.
      rewrite Zplus_mod, E, <- Zplus_mod. f_equal. lia.
  - destruct P as [P1 P2]. destruct (inv_calloc c h l num size G I P1 P2) as (h' & r' & A1 & _ & Z0 & NZ).
    rewrite A in A1. injection A1 as <- <-. destruct (Z.eqb_spec r 0) as [X|X].
    + rewrite (Z0 X). destruct (num * size <? W64); unfold fired; try destruct (h_cb h); exact E.
    + destruct (NZ X) as (_ & _ & _ & _ & AL & FE & _). rewrite AL, FE. unfold u64. cbn [length].
      rewrite Zminus_mod_idemp_l.
      replace (h_allocs h + 1 - h_frees h) with (h_allocs h - h_frees h + 1) by lia.
      rewrite Zplus_mod, E, <- Zplus_mod. f_equal. lia.
  - destruct P as [->|(b & BI & <-)].
    + cbn in A. injection A as <- _. rewrite filter_id; [exact E|].
      intros b BI. pose proof (held_range _ _ _ I BI). geo_facts G. lia.
    + destruct (inv_free c h l b G I BI) as (h' & A1 & _ & F & MN & AL & FE & _).
      rewrite A1 in A. cbn in A. injection A as <- _. rewrite AL, FE. unfold u64.
      rewrite Zminus_mod_idemp_r.
      assert (LEN : Z.of_nat (length l) = Z.of_nat (length (filter (fun x => negb (hd_ptr x =? hd_ptr b)) l)) + 1).
      { pose proof (inv_nodup _ _ I) as ND. clear - BI ND.
        apply in_split in BI. destruct BI as (k1 & k2 & ->).
        rewrite map_app in ND. cbn [map] in ND. apply NoDup_remove in ND. destruct ND as [_ NI].
        rewrite filter_app. cbn [filter]. rewrite Z.eqb_refl. cbn [negb].
        rewrite !filter_id; [rewrite !app_length; cbn [length]; lia| |].
        - intros x X. destruct (Z.eqb_spec (hd_ptr x) (hd_ptr b)) as [Q|Q]; [|reflexivity].
          exfalso. apply NI. apply in_or_app. right. rewrite <- Q. apply in_map, X.
        - intros x X. destruct (Z.eqb_spec (hd_ptr x) (hd_ptr b)) as [Q|Q]; [|reflexivity].
          exfalso. apply NI. apply in_or_app. left. rewrite <- Q. apply in_map, X. }
      rewrite LEN in E.
      replace (h_allocs h - (h_frees h + 1)) with ((h_allocs h - h_frees h) - 1) by lia.
      rewrite Zminus_mod, E, <- Zminus_mod. f_equal. lia.
  - injection A as <- _. exact E.
  - injection A as <- _. exact E.
  - unfold client_write in A. destruct ((c_base c <=? a) && (a <? c_base c + c_size c)); [|discriminate].
    cbn in A. injection A as <- _. exact E.
Qed.

Lemma counters h l :
  reachable c h l -> (h_allocs h - h_frees h) mod W64 = Z.of_nat (length l) mod W64.
Proof.
  intros (h0 & evs & E & S). apply (counters_gen _ _ _ _ _ S).
  - apply (inv_construct c h0 G E).
  - destruct (construct_spec c G (g_size c G)) as (m & E' & _). rewrite E in E'. injection E' as ->.
    reflexivity.
Qed.

(** C04 *)
Definition twin (h1 h2 : heap) (l : list held) : Prop :=
  exists bl, repr c h1 bl /\ repr c h2 bl /\ corr bl l.

Lemma repr_fired h bl : repr c h bl -> repr c (fired h) bl.
Proof. intros R. unfold fired. destruct (h_cb h); [|exact R]. destruct R. constructor; assumption. Qed.

Lemma a_alloc_twin h1 h2 bl l n :
  repr c h1 bl -> repr c h2 bl -> corr bl l -> is_size n ->
  exists h1' h2' r, allocate c h1 n = Ok (h1', r) /\ allocate c h2 n = Ok (h2', r) /\
    h_free h1' = h_free h2' /\
    twin h1' h2' (if r =? 0 then l else Held r n (h_free h1 - h_free h1') :: l).
Proof.
  intros R1 R2 C N.
  pose proof (allocate_spec c h1 bl n G R1 N) as A1.
  pose proof (allocate_spec c h2 bl n G R2 N) as A2.
  assert (FE : h_free h1 = h_free h2) by (rewrite (r_free _ _ _ R1), (r_free _ _ _ R2); reflexivity).
  destruct (a_alloc bl n) as [[bl' a]|] eqn:AA.
  - destruct A1 as (h1' & k1 & s & k2 & AE1 & R1' & E1 & E2 & WS & SM & F1 & _).
    destruct A2 as (h2' & j1 & s2 & j2 & AE2 & R2' & _).
    exists h1', h2', (a + 16). split; [exact AE1|]. split; [exact AE2|].
    split; [rewrite (r_free _ _ _ R1'), (r_free _ _ _ R2'); reflexivity|].
    pose proof (r_tiles _ _ _ (r_mem _ _ _ R1)) as T.
    assert (IB : In (Blk a s false) bl) by (rewrite E1; apply in_elt).
    pose proof (tiles_in _ _ _ _ T (g_startmod c G) IB) as IR. cbn in IR.
    replace (a + 16 =? 0) with false by (geo_facts G; lia).
    exists bl'. split; [exact R1'|]. split; [exact R2'|]. rewrite E2.
    replace (h_free h1 - h_free h1') with (if 32 <? s - needed n then needed n else s) by lia.
    unfold a_alloc in AA. destruct (0 <? n) eqn:N0; [|discriminate].
    apply corr_taken; [rewrite <- E1; exact C|lia|exact WS].
  - exists (fired h1), (fired h2), 0. split; [exact A1|]. split; [exact A2|].
    split; [unfold fired; destruct (h_cb h1), (h_cb h2); exact FE|].
    cbn [Z.eqb]. exists bl. split; [apply repr_fired, R1|]. split; [apply repr_fired, R2|exact C].
Qed.

Lemma repr_setmem h bl l b m :
  repr c h bl -> corr bl l -> In b l ->
  (forall x, ~ (hd_ptr b <= x < hd_ptr b + hd_req b) -> m x = h_mem h x) ->
  repr c (set_mem h m) bl.
Proof.
  intros R C I FR.
  pose proof (corr_good _ _ _ C I) as (GR & GN & _).
  pose proof (needed_bounds _ GR).
  destruct R as [RMM RE RF]. constructor; cbn; [|exact RE|exact RF].
  eapply mrepr_payload; [exact G|exact RMM|apply (corr_in _ _ _ C I)|reflexivity|].
  cbn. intros x X. apply FR. lia.
Qed.

Lemma twin_apply h1 h2 l o :
  twin h1 h2 l -> permitted l o ->
  exists h1' h2' r, apply c h1 o = Ok (h1', r) /\ apply c h2 o = Ok (h2', r) /\
    h_free h1' = h_free h2' /\ twin h1' h2' (hold l o r (h_free h1) (h_free h1')).
Proof.
  intros (bl & R1 & R2 & C) P.
  assert (FE : h_free h1 = h_free h2) by (rewrite (r_free _ _ _ R1), (r_free _ _ _ R2); reflexivity).
  destruct o as [n|num size|p| |b|a v]; cbn [permitted apply hold] in *.
  - eapply a_alloc_twin; eassumption.
  - destruct P as [P1 P2]. unfold callocate. rewrite needed_size_mul by assumption.
    rewrite negb_involutive.
    assert (P0 : 0 <= num * size) by (unfold is_size in *; apply Z.mul_nonneg_nonneg; lia).
    destruct (num * size <? W64) eqn:OV.
    2:{ exists h1, h2, 0. repeat split; auto. exists bl. auto. }
    rewrite u64_id by lia.
    destruct (a_alloc_twin h1 h2 bl l (num * size) R1 R2 C ltac:(unfold is_size; lia))
      as (h1' & h2' & r & A1 & A2 & F & TW).
    rewrite A1, A2. cbn [bind].
    destruct (Z.eqb_spec r 0) as [X|X]; cbn [negb].
    { exists h1', h2', r. subst r. cbn [Z.eqb]. repeat split; auto. }
    destruct TW as (bl' & R1' & R2' & C').
    set (d := Held r (num * size) (h_free h1 - h_free h1')) in *.
    assert (ID : In d (d :: l)) by (left; reflexivity).
    pose proof (corr_in _ _ d C' ID) as BI.
    pose proof (corr_good _ _ d C' ID) as (GR & GN & _).
    pose proof (tiles_in _ _ _ _ (r_tiles _ _ _ (r_mem _ _ _ R1')) (g_startmod c G) BI) as BR.
    cbn [d hd_ptr hd_req hd_fp b_addr b_len] in *. pose proof (needed_bounds _ GR) as NB.
    unfold memset0.
    replace ((c_base c <=? r) && (r + num * size <=? c_base c + c_size c)) with true by (geo_facts G; lia).
    cbn [bind]. eexists _, _, r. split; [reflexivity|]. split; [reflexivity|].
    split; [exact F|]. destruct (Z.eqb_spec r 0); [contradiction|].
    exists bl'. cbn [set_mem h_free].
    assert (FRM : forall hh x, ~ (hd_ptr d <= x < hd_ptr d + hd_req d) ->
        (if (r <=? x) && (x <? r + num * size) then 0 else h_mem hh x) = h_mem hh x).
    { intros hh x Y. cbn [d hd_ptr hd_req] in Y.
      replace ((r <=? x) && (x <? r + num * size)) with false by lia. reflexivity. }
    split; [|split; [|exact C']].
    + apply (repr_setmem h1' bl' (d :: l) d); auto.
    + apply (repr_setmem h2' bl' (d :: l) d); auto.
  - destruct P as [->|(b & BI & <-)].
    + exists h1, h2, 0. repeat split; auto. exists bl. rewrite filter_id; [auto|].
      intros b BI. pose proof (held_range h1 l b (ex_intro _ bl (conj R1 C)) BI). geo_facts G. lia.
    + destruct (held_lookup c h1 bl l b G R1 C BI) as (l1 & l2 & E). subst bl.
      pose proof (r_tiles _ _ _ (r_mem _ _ _ R1)) as T.
      destruct (deallocate_spec c h1 l1 (hd_ptr b - 16) (hd_fp b) l2 G R1) as (h1' & D1 & R1' & F1 & _).
      destruct (deallocate_spec c h2 l1 (hd_ptr b - 16) (hd_fp b) l2 G R2) as (h2' & D2 & R2' & F2 & _).
      replace (hd_ptr b - 16 + 16) with (hd_ptr b) in D1, D2 by lia.
      rewrite D1, D2. cbn [bind]. exists h1', h2', 0. repeat split; try lia.
      pose proof (corr_free _ _ _ _ _ _ _ T C) as CF.
      replace (hd_ptr b - 16 + 16) with (hd_ptr b) in CF by lia.
      eexists. split; [exact R1'|]. split; [exact R2'|exact CF].
  - eexists _, _, _. split; [reflexivity|]. split; [reflexivity|]. split; [exact FE|].
    exists bl. destruct R1, R2. split; [constructor; assumption|]. split; [constructor; assumption|exact C].
  - eexists _, _, _. split; [reflexivity|]. split; [reflexivity|]. split; [exact FE|].
    exists bl. destruct R1, R2. split; [constructor; assumption|]. split; [constructor; assumption|exact C].
  - destruct P as (V & b & BI & X). unfold client_write.
    pose proof (held_range h1 l b (ex_intro _ bl (conj R1 C)) BI) as HR.
    replace ((c_base c <=? a) && (a <? c_base c + c_size c)) with true by (geo_facts G; lia).
    cbn [bind]. eexists _, _, _. split; [reflexivity|]. split; [reflexivity|]. split; [exact FE|].
    exists bl.
    assert (FRM : forall hh x, ~ (hd_ptr b <= x < hd_ptr b + hd_req b) -> upd (h_mem hh) a v x = h_mem hh x).
    { intros hh x Y. unfold upd. destruct (Z.eqb_spec x a); [lia|reflexivity]. }
    split; [|split; [|exact C]]; (apply (repr_setmem _ bl l b); auto).
Qed.

Lemma twin_sym h1 h2 l : twin h1 h2 l -> twin h2 h1 l.
Proof. intros (bl & A & B & C). exists bl. auto. Qed.

Lemma twin_session h1 l evs h1' l' :
  session c h1 l evs h1' l' -> forall h2, twin h1 h2 l ->
  exists h2', session c h2 l evs h2' l' /\ twin h1' h2' l'.
Proof.
  induction 1 as [h l|h l o h1 r evs h1' l' P A S IH]; intros h2 TW.
  - exists h2. split; [constructor|exact TW].
  - destruct (twin_apply h h2 l o TW P) as (k1 & k2 & r' & A1 & A2 & F & TW').
    rewrite A in A1. injection A1 as <- <-.
    destruct (IH k2 TW') as (h2' & S' & TW2). exists h2'. split; [|exact TW2].
    unfold free_heap_size. rewrite F. econstructor; [exact P|exact A2|].
    unfold free_heap_size in *. destruct TW as (bl & R1 & R2 & C).
    rewrite (r_free _ _ _ R2), <- (r_free _ _ _ R1), <- F. exact S'.
Qed.

Lemma twin_empty h h0 : reachable c h [] -> construct c = Ok h0 -> twin h h0 [].
Proof.
  intros R E. apply (inv_reachable _ _ _ G) in R. destruct R as (bl & R & C).
  destruct (construct_spec c G (g_size c G)) as (m & E' & R0). rewrite E in E'. injection E' as ->.
  assert (U : useds bl = []).
  { pose proof (co_perm _ _ C) as P. cbn in P. apply Permutation_sym, Permutation_nil in P. exact P. }
  pose proof (r_tiles _ _ _ (r_mem _ _ _ R)) as T. pose proof (r_noadj _ _ _ (r_mem _ _ _ R)) as NA.
  assert (B : bl = [Blk (area_start c) (area_end c - area_start c) false]).
  { destruct bl as [|b [|b2 bl]].
    - cbn in T. geo_facts G. lia.
    - cbn in T, U. destruct b as [q t us]. cbn in *. destruct us; [discriminate|].
      destruct T as (-> & _ & _ & T). f_equal. f_equal. lia.
    - cbn in U, NA. destruct (b_used b); [discriminate|]. destruct (b_used b2); [discriminate|].
      destruct NA as [NA _]. discriminate NA. }
  exists bl. split; [exact R|]. split; [|exact C]. subst bl.
  constructor; cbn; [exact R0|reflexivity|lia].
Qed.

(** C11 *)
Lemma coalesce_head_len k : forall z w d r, tiles z k w -> coalesce k = d :: r -> 0 <= b_len d.
Proof.
  induction k as [|x k IH]; intros z w d r T; cbn [coalesce]; [discriminate|].
  cbn [tiles] in T. destruct T as (_ & X1 & _ & T).
  destruct (coalesce k) as [|y k'] eqn:Y.
  - intros [= <- _]. lia.
  - pose proof (IH _ _ _ _ T eq_refl). destruct (b_used x || b_used y); intros [= <- _]; cbn; lia.
Qed.

Lemma coalesce_cover bl : forall s e q t, tiles s bl e -> In (Blk q t false) bl ->
  exists q' t', In (Blk q' t' false) (coalesce bl) /\ (q' = q \/ q' + 16 <= q) /\ q + t <= q' + t'.
Proof.
  induction bl as [|b bl IH]; intros s e q t T I; [destruct I|].
  cbn [tiles] in T. destruct T as (A & B & C & T). cbn [coalesce].
  assert (HD : forall b2 t2, coalesce bl = b2 :: t2 -> b_addr b2 = s + b_len b).
  { clear - T. revert T. generalize (s + b_len b). destruct bl as [|d bl]; intros z T b2 t2; cbn [coalesce]; [discriminate|].
    cbn [tiles] in T. destruct T as (A & _). destruct (coalesce bl) as [|b3 t3].
    - intros [= <- _]. exact A.
    - destruct (b_used d || b_used b3); intros [= <- _]; exact A. }
  destruct I as [->|I].
  - cbn [b_addr b_len b_used orb] in *. destruct (coalesce bl) as [|b2 t2] eqn:CB.
    + exists q, t. split; [left; reflexivity|]. split; [left; reflexivity|lia].
    + destruct (b_used b2) eqn:U2.
      * exists q, t. split; [left; reflexivity|]. split; [left; reflexivity|lia].
      * exists q, (t + b_len b2). split; [left; reflexivity|]. split; [left; reflexivity|].
        assert (0 <= b_len b2) by (eapply coalesce_head_len; [exact T|exact CB]).
        lia.
  - destruct (IH _ _ _ _ T I) as (q' & t' & I' & Q1 & Q2).
    destruct (coalesce bl) as [|b2 t2] eqn:CB; [destruct I'|].
    destruct (b_used b || b_used b2) eqn:U.
    + exists q', t'. split; [right; exact I'|auto].
    + destruct I' as [->|I'].
      * specialize (HD _ _ eq_refl). cbn [b_addr b_len] in *.
        exists (b_addr b), (b_len b + t'). split; [left; reflexivity|]. lia.
      * exists q', t'. split; [right; exact I'|auto].
Qed.

Definition stale (h : heap) (l : list held) (a : Z) : Prop :=
  exists bl q t, repr c h bl /\ corr bl l /\ In (Blk q t false) bl /\
    (a = q \/ q + 16 <= a) /\ a + 16 <= q + t /\ a mod 8 = 0 /\
    0 <= rd (h_mem h) (a + 8) < 2 ^ 63.

Lemma stale_noop h l a : stale h l a -> deallocate c h (a + 16) = Ok h.
Proof.
  intros (bl & q & t & R & C & I & A1 & A2 & A3 & S).
  pose proof (tiles_in _ _ _ _ (r_tiles _ _ _ (r_mem _ _ _ R)) (g_startmod c G) I) as IR. cbn in IR.
  unfold deallocate. replace (a + 16 =? 0) with false by (geo_facts G; lia).
  rewrite hss_val, u64_id by (geo_facts G; lia). replace (a + 16 - 16) with a by lia.
  assert (AO : hdr_ok c a) by (geo_facts G; split; [lia|left; lia]).
  unfold heap_block_is_allocated. rewrite (ld_size_ok c _ a) by assumption. cbn [bind].
  rewrite bit_val, small_land_top by exact S. reflexivity.
Qed.

Lemma stale_ext h h' l a :
  stale h l a -> h_mem h' = h_mem h -> h_end h' = h_end h -> h_free h' = h_free h -> stale h' l a.
Proof.
  intros (bl & q & t & R & C & I & A1 & A2 & A3 & S) M E F.
  exists bl, q, t. rewrite M. split; [|auto 10].
  destruct R. constructor; rewrite ?M, ?E, ?F; assumption.
Qed.
Lemma stale_free h l a b :
  stale h l a -> In b l ->
  exists h', deallocate c h (hd_ptr b) = Ok h' /\
    stale h' (filter (fun x => negb (hd_ptr x =? hd_ptr b)) l) a.
Proof.
  intros (bl & q & t & R & C & I & A1 & A2 & A3 & S) BI.
  destruct (held_lookup c h bl l b G R C BI) as (l1 & l2 & E). subst bl.
  pose proof (r_tiles _ _ _ (r_mem _ _ _ R)) as T.
  destruct (deallocate_spec c h l1 (hd_ptr b - 16) (hd_fp b) l2 G R)
    as (h' & D & R' & _ & _ & _ & _ & _ & _ & _ & SP & FR).
  replace (hd_ptr b - 16 + 16) with (hd_ptr b) in D by lia.
  exists h'. split; [exact D|].
  pose proof (corr_free _ _ _ _ _ _ _ T C) as CF.
  replace (hd_ptr b - 16 + 16) with (hd_ptr b) in CF by lia.
  pose proof (corr_in _ _ _ C BI) as BB.
  pose proof (tiles_sep _ _ _ _ _ T I BB) as [X|SEP]; [discriminate X|]. cbn [b_addr b_len] in SEP.
  pose proof (tiles_in _ _ _ _ T (g_startmod c G) I) as IR. cbn [b_addr b_len] in IR.
  pose proof (tiles_in _ _ _ _ T (g_startmod c G) BB) as BR. cbn [b_addr b_len] in BR.
  assert (I' : In (Blk q t false) (l1 ++ Blk (hd_ptr b - 16) (hd_fp b) false :: l2)).
  { apply in_app_or in I. apply in_or_app. destruct I as [I|[I|I]]; [left; exact I|discriminate I|].
    right; right; exact I. }
  assert (T' : tiles (area_start c) (l1 ++ Blk (hd_ptr b - 16) (hd_fp b) false :: l2) (area_end c)).
  { apply tiles_app in T. destruct T as (k & K1 & K2). apply tiles_app. exists k. split; [exact K1|exact K2]. }
  destruct (coalesce_cover _ _ _ _ _ T' I') as (q' & t' & I2 & Q1 & Q2).
  rewrite (a_free_at _ _ _ _ _ _ T) in R', CF.
  eexists _, q', t'. split; [exact R'|]. split; [exact CF|]. split; [exact I2|].
  split; [lia|]. split; [lia|]. split; [exact A3|].
  (* the word at a+8 *)
  destruct (Z.eq_dec a (last_addr (frees l1) (c_xs c))) as [AP|AP].
  - rewrite <- AP in SP. destruct SP as [-> |SP]; assumption.
  - rewrite (rd_ext _ (h_mem h)); [exact S|]. intros y Y. apply FR; [|lia].
    destruct (pred_free c l1) as [P|(u & P)]; [rewrite P; geo_facts G; lia|].
    assert (PI : In (Blk (last_addr (frees l1) (c_xs c)) u false)
                    (l1 ++ Blk (hd_ptr b - 16) (hd_fp b) true :: l2)) by (apply in_or_app; auto).
    pose proof (tiles_in _ _ _ _ T (g_startmod c G) PI).
    pose proof (tiles_sep _ _ _ _ _ T I PI) as [X|X]; [injection X as X _|]; cbn [b_addr b_len] in *; lia.
Qed.

Lemma stale_start h l b :
  inv c h l -> In b l ->
  exists h', deallocate c h (hd_ptr b) = Ok h' /\
    stale h' (filter (fun x => negb (hd_ptr x =? hd_ptr b)) l) (hd_ptr b - 16).
Proof.
  intros (bl & R & C) BI.
  destruct (held_lookup c h bl l b G R C BI) as (l1 & l2 & E). subst bl.
  pose proof (r_tiles _ _ _ (r_mem _ _ _ R)) as T.
  destruct (deallocate_spec c h l1 (hd_ptr b - 16) (hd_fp b) l2 G R)
    as (h' & D & R' & _ & _ & _ & _ & _ & _ & ST & _).
  replace (hd_ptr b - 16 + 16) with (hd_ptr b) in D by lia.
  exists h'. split; [exact D|].
  pose proof (corr_free _ _ _ _ _ _ _ T C) as CF.
  replace (hd_ptr b - 16 + 16) with (hd_ptr b) in CF by lia.
  pose proof (tiles_in _ _ _ _ T (g_startmod c G) (corr_in _ _ _ C BI)) as BR. cbn [b_addr b_len] in BR.
  assert (T' : tiles (area_start c) (l1 ++ Blk (hd_ptr b - 16) (hd_fp b) false :: l2) (area_end c)).
  { apply tiles_app in T. destruct T as (k & K1 & K2). apply tiles_app. exists k. split; [exact K1|exact K2]. }
  destruct (coalesce_cover _ _ _ (hd_ptr b - 16) (hd_fp b) T' ltac:(apply in_elt)) as (q' & t' & I2 & Q1 & Q2).
  rewrite (a_free_at _ _ _ _ _ _ T) in R', CF.
  eexists _, q', t'. split; [exact R'|]. split; [exact CF|]. split; [exact I2|].
  split; [lia|]. split; [lia|]. split; [lia|]. exact ST.
Qed.

Lemma stale_inv h l a : stale h l a -> inv c h l.
Proof. intros (bl & q & t & R & C & _). exists bl. auto. Qed.

Lemma stale_write h l a x v h' :
  stale h l a -> permitted l (Write x v) -> client_write c h x v = Ok h' -> stale h' l a.
Proof.
  intros (bl & q & t & R & C & I & A1 & A2 & A3 & S) (V & b & BI & X).
  unfold client_write. destruct ((c_base c <=? x) && (x <? c_base c + c_size c)); [|discriminate].
  intros [= <-]. exists bl, q, t.
  assert (FRM : forall y, ~ (hd_ptr b <= y < hd_ptr b + hd_req b) -> upd (h_mem h) x v y = h_mem h y).
  { intros y Y. unfold upd. destruct (Z.eqb_spec y x); [lia|reflexivity]. }
  split; [apply (repr_setmem h bl l b); auto|]. split; [exact C|]. split; [exact I|].
  split; [exact A1|]. split; [exact A2|]. split; [exact A3|].
  cbn [set_mem h_mem]. rewrite (rd_ext _ (h_mem h)); [exact S|].
  intros y Y. apply FRM. pose proof (corr_in _ _ _ C BI) as BB.
  pose proof (corr_good _ _ _ C BI) as (GR & GN & _). pose proof (needed_bounds _ GR).
  pose proof (tiles_sep _ _ _ _ _ (r_tiles _ _ _ (r_mem _ _ _ R)) I BB) as [Z|Z]; [discriminate Z|].
  cbn in Z. lia.
Qed.

Lemma stale_fired h l a : stale h l a -> stale (fired h) l a.
Proof. intros S. eapply stale_ext; [exact S| | |]; unfold fired; destruct (h_cb h); reflexivity. Qed.

Lemma stale_session h l evs h' l' :
  session c h l evs h' l' -> forall a, Forall (fun e => snd (fst e) = 0) evs ->
  stale h l a -> stale h' l' a.
Proof.
  induction 1 as [|h l o h1 r evs h2 l2 P A S IH]; intros a F ST; [exact ST|].
  inversion F as [|? ? F0 F1]; subst. cbn in F0. subst r. apply IH; [exact F1|].
  pose proof (stale_inv _ _ _ ST) as I.
  destruct o as [n|num size|p| |b|x v]; cbn [permitted apply hold] in *.
  - cbn [Z.eqb]. destruct (inv_alloc c h l n G I P) as (h' & r' & A1 & _ & Z0 & _).
    rewrite A in A1. injection A1 as <- <-. rewrite Z0 by reflexivity. apply stale_fired, ST.
  - cbn [Z.eqb]. destruct P as [P1 P2]. destruct (inv_calloc c h l num size G I P1 P2) as (h' & r' & A1 & _ & Z0 & _).
    rewrite A in A1. injection A1 as <- <-. rewrite Z0 by reflexivity.
    destruct (num * size <? W64); [apply stale_fired, ST|exact ST].
  - destruct P as [->|(b & BI & <-)].
    + cbn in A. injection A as <-. rewrite filter_id; [exact ST|].
      intros b BI. pose proof (held_range _ _ _ I BI). geo_facts G. lia.
    + destruct (stale_free _ _ _ _ ST BI) as (h' & D & ST'). rewrite D in A. cbn in A.
      injection A as <-. exact ST'.
  - injection A as <-. eapply stale_ext; [exact ST| | |]; reflexivity.
  - injection A as <-. eapply stale_ext; [exact ST| | |]; reflexivity.
  - destruct (client_write c h x v) as [h'| |] eqn:CW; cbn in A; try discriminate.
    injection A as <-. eapply stale_write; eassumption.
Qed.

Lemma double_free h l b h1 evs h2 l2 :
  reachable c h l -> In b l -> deallocate c h (hd_ptr b) = Ok h1 ->
  session c h1 (hold l (Free (hd_ptr b)) 0 (free_heap_size h) (free_heap_size h1)) evs h2 l2 ->
  Forall (fun e => snd (fst e) = 0) evs ->
  deallocate c h2 (hd_ptr b) = Ok h2.
Proof.
  intros R BI D S F. apply (inv_reachable _ _ _ G) in R.
  destruct (stale_start _ _ _ R BI) as (h' & D' & ST). rewrite D in D'. injection D' as <-.
  pose proof (stale_session _ _ _ _ _ S _ F ST) as ST2.
  apply stale_noop in ST2. replace (hd_ptr b - 16 + 16) with (hd_ptr b) in ST2 by lia. exact ST2.
Qed.

(** C13 *)
Lemma construct_whole :
  exists h, construct c = Ok h /\
    free_heap_size h = area_end c - area_start c /\
    minimum_ever_free_heap_size h = area_end c - area_start c /\
    h_allocs h = 0 /\ h_frees h = 0 /\
    (24 <= area_end c - area_start c ->
     exists h', allocate c h (area_end c - area_start c - 16) = Ok (h', area_start c + 16) /\
                free_heap_size h' = 0).
Proof.
  destruct (construct_spec c G (g_size c G)) as (m & E & R). eexists. split; [exact E|].
  cbn. repeat split; auto. intros W.
  set (h0 := mkHeap _ _ _ _ _ _ _ _).
  set (n := area_end c - area_start c - 16).
  assert (RR : repr c h0 [Blk (area_start c) (area_end c - area_start c) false]).
  { constructor; cbn; [exact R|reflexivity|lia]. }
  assert (NN : needed n = area_end c - area_start c).
  { unfold needed, n. geo_facts G. lia. }
  assert (NS : is_size n) by (unfold is_size, n; geo_facts G; lia).
  pose proof (allocate_spec c h0 _ n G RR NS) as AS. unfold a_alloc in AS.
  rewrite NN in AS.
  assert (OK : (0 <? n) && (area_end c - area_start c <? 2 ^ 63) = true) by (unfold n; geo_facts G; lia); rewrite OK in AS.
  cbn [a_take b_used b_len negb andb b_addr] in AS.
  rewrite Z.leb_refl in AS.
  destruct AS as (h' & l1 & s & l2 & AE & _ & E1 & _ & WS & _ & F & _).
  exists h'. split; [exact AE|]. unfold free_heap_size. rewrite F. cbn [h0 h_free].
  destruct l1 as [|b l1]; cbn in E1.
  - injection E1 as <- _. rewrite Z.sub_diag. cbn. lia.
  - injection E1 as _ E1. destruct l1; discriminate.
Qed.
End Reach.
