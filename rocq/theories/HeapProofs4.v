(** Whole-call specifications, construction and the client invariant. *)
From Coq Require Import Permutation.
From Verif Require Export HeapProofs3.

(** ** deallocate *)
Lemma map_mark_id a k l e s :
  tiles s l e -> (e <= a \/ a < s) -> k = a -> map (mark k) l = l.
Proof.
  intros T H ->. revert s T H. induction l as [|b l IH]; intros s T H; [reflexivity|].
  cbn [tiles] in T. destruct T as (A & B & C & T). cbn [map].
  pose proof (tiles_le _ _ _ T).
  rewrite (IH _ T) by lia. unfold mark. replace (b_addr b =? a) with false by lia. reflexivity.
Qed.

Lemma a_free_at s0 l1 a s l2 e :
  tiles s0 (l1 ++ Blk a s true :: l2) e ->
  a_free a (l1 ++ Blk a s true :: l2) = coalesce (l1 ++ Blk a s false :: l2).
Proof.
  intros T. apply tiles_mid in T. cbn [b_addr b_len] in T. destruct T as (T1 & A & B & T2).
  unfold a_free. rewrite map_app. cbn [map].
  rewrite (map_mark_id a a l1 _ _ T1) by (try lia; reflexivity).
  rewrite (map_mark_id a a l2 _ _ T2) by (try lia; reflexivity).
  unfold mark. cbn [b_addr]. rewrite Z.eqb_refl. reflexivity.
Qed.

Lemma free_sum_coalesce bl : free_sum (coalesce bl) = free_sum bl.
Proof.
  induction bl as [|b bl IH]; [reflexivity|]. cbn [coalesce free_sum]. rewrite <- IH.
  destruct (coalesce bl) as [|b2 t]; cbn [free_sum]; [lia|].
  destruct (b_used b) eqn:U, (b_used b2) eqn:U2; cbn [orb free_sum b_used b_len];
    rewrite ?U, ?U2; lia.
Qed.

Lemma deallocate_spec c h l1 a s l2 :
  geo c -> repr c h (l1 ++ Blk a s true :: l2) ->
  let p := last_addr (frees l1) (c_xs c) in
  exists h',
    deallocate c h (a + 16) = Ok h' /\
    repr c h' (a_free a (l1 ++ Blk a s true :: l2)) /\
    h_free h' = h_free h + s /\ h_min h' = h_min h /\
    h_allocs h' = h_allocs h /\ h_frees h' = u64 (h_frees h + 1) /\
    h_cb h' = h_cb h /\ h_fired h' = h_fired h /\
    0 <= rd (h_mem h') (a + 8) < 2 ^ 63 /\
    (rd (h_mem h') (p + 8) = rd (h_mem h) (p + 8) \/ 0 <= rd (h_mem h') (p + 8) < 2 ^ 63) /\
    (forall x, ~ (p <= x < p + 16) -> ~ (a <= x < a + 16) -> h_mem h' x = h_mem h x).
Proof.
  intros G R p. pose proof (r_mem _ _ _ R) as RM. pose proof (r_tiles _ _ _ RM) as T.
  pose proof (tiles_mid _ _ _ _ _ T) as (T1 & A16 & AM & T2). cbn [b_addr b_len] in *.
  pose proof (tiles_le _ _ _ T1) as L1. pose proof (tiles_le _ _ _ T2) as L2.
  pose proof (tiles_mod _ _ _ T1 (g_startmod c G)) as AMOD.
  assert (AO : hdr_ok c a) by (geo_facts G; split; [lia|left; lia]).
  destruct (r_used _ _ _ RM (Blk a s true) ltac:(apply in_elt) eq_refl) as [UN US].
  cbn [b_addr b_len] in UN, US.
  unfold deallocate. replace (a + 16 =? 0) with false by (geo_facts G; lia).
  rewrite hss_val. rewrite u64_id by (geo_facts G; lia).
  replace (a + 16 - 16) with a by lia.
  unfold heap_block_is_allocated. rewrite (ld_size_ok c _ a) by assumption. cbn [bind].
  rewrite US, bit_val.
  assert (S63 : 0 <= s < 2 ^ 63) by (geo_facts G; lia).
  destruct (Z.land (s + 2 ^ 63) (2 ^ 63) =? 0) eqn:E.
  { apply Z.eqb_eq in E. apply land_top_iff in E; rewrite ?W64_val; lia. }
  cbn [negb]. rewrite (ld_next_ok c _ a) by assumption. cbn [bind]. rewrite UN, Z.eqb_refl.
  unfold heap_free_block. rewrite (ld_size_ok c _ a) by assumption. cbn [bind].
  rewrite US, nbit_val.
  replace (Z.land (s + 2 ^ 63) 9223372036854775807) with s.
  2:{ symmetry. apply land_nottop. lia. }
  rewrite (st_size_ok c _ a) by assumption. cbn [bind].
  rewrite (ld_size_ok c _ a) by assumption. cbn [bind].
  rewrite rd_wr_same by (rewrite W64_val; lia).
  destruct (insert_spec c (h_mem h) l1 a s l2 G RM) as (M & IE & MR & ST & SP & FR). fold p in FR, SP.
  rewrite (r_end _ _ _ R), IE. cbn [bind].
  pose proof (r_free _ _ _ R) as RF. rewrite free_sum_app in RF. cbn [free_sum b_used b_len] in RF.
  pose proof (free_sum_bound _ _ _ T1). pose proof (free_sum_bound _ _ _ T2).
  rewrite (u64_id (h_free h + s)) by (geo_facts G; lia).
  eexists. split; [reflexivity|]. split.
  - rewrite (a_free_at _ _ _ _ _ _ T). constructor; cbn; [exact MR|reflexivity|].
    rewrite free_sum_coalesce, free_sum_app. cbn [free_sum b_used b_len]. lia.
  - cbn [h_mem h_free h_min h_allocs h_frees h_cb h_fired]. repeat split; auto; lia.
Qed.

Lemma deallocate_null c h : deallocate c h 0 = Ok h.
Proof. reflexivity. Qed.

(** ** construction *)
Lemma construct_spec c :
  geo c -> c_size c < 2 ^ 63 ->
  exists m, construct c =
    Ok (mkHeap m (area_end c) (area_end c - area_start c) (area_end c - area_start c) 0 0 false 0) /\
    mrepr c m [Blk (area_start c) (area_end c - area_start c) false].
Proof.
  intros G S63. unfold construct.
  assert (ST : (if negb (Z.land (c_base c) port_byte_alignment_mask =? 0)
      then (Z.land (u64 (c_base c + (port_byte_alignment - 1))) not_mask,
            u64 (c_size c - u64 (Z.land (u64 (c_base c + (port_byte_alignment - 1))) not_mask - c_base c)))
      else (c_base c, c_size c)) = (area_start c, c_size c - (area_start c - c_base c))).
  { unfold port_byte_alignment_mask, port_byte_alignment. rewrite land_mask7, nmask_val.
    geo_facts G. 
    destruct (c_base c mod 8 =? 0) eqn:E; cbn [negb].
    - unfold area_start in *. f_equal; lia.
    - rewrite (u64_id (c_base c + (8 - 1))) by lia.
      rewrite land_hi_mask by lia.
      replace ((c_base c + (8 - 1)) / 8 * 8) with (area_start c) by reflexivity.
      rewrite (u64_id (area_start c - c_base c)) by lia.
      rewrite u64_id by lia. reflexivity. }
  cbv zeta. rewrite ST. clear ST.
  geo_facts G. rewrite hss_val, nmask_val.
  replace (u64 (u64 (area_start c + (c_size c - (area_start c - c_base c))) - 16))
    with (c_base c + c_size c - 16).
  2:{ rewrite (u64_id (area_start c + _)) by lia. rewrite u64_id by lia. lia. }
  rewrite land_hi_mask by lia.
  change ((c_base c + c_size c - 16) / 8 * 8) with (area_end c).
  pose proof (hdr_ok_xs c G) as XO. pose proof (hdr_ok_end c G) as EO.
  assert (SO : hdr_ok c (area_start c)) by (split; [lia|left; lia]).
  rewrite st_next_ok by assumption. cbn [bind].
  rewrite st_size_ok by assumption. cbn [bind].
  rewrite (st_size_ok c _ (area_end c)) by assumption. cbn [bind].
  rewrite (st_next_ok c _ (area_end c)) by assumption. cbn [bind].
  rewrite (st_size_ok c _ (area_start c)) by assumption. cbn [bind].
  rewrite (st_next_ok c _ (area_start c)) by assumption. cbn [bind].
  rewrite (ld_size_ok c _ (area_start c)) by assumption. cbn [bind].
  rewrite (u64_id (area_end c - area_start c)) by lia.
  rewrite (rd_wr_other _ (area_start c)) by lia.
  rewrite rd_wr_same by lia.
  eexists. split; [reflexivity|].
  assert (Z0 : 0 <= 0 < W64) by (rewrite W64_val; lia).
  assert (P0U : 0 <= prot 0 < W64) by (apply prot_range; exact Z0).
  assert (PEU : 0 <= prot (area_end c) < W64) by (apply prot_range; lia).
  assert (PSU : 0 <= prot (area_start c) < W64) by (apply prot_range; lia).
  set (a := area_start c) in *. set (e := area_end c) in *. set (xs := c_xs c) in *.
  constructor.
  - cbn [tiles b_addr b_len]. fold a e. repeat split; lia.
  - exact I.
  - fold xs. rewrite (rd_wr_other _ a), (rd_wr_other _ (a + 8)), (rd_wr_other _ e), (rd_wr_other _ (e + 8)) by lia.
    apply rd_wr_same; exact Z0.
  - fold e. rewrite (rd_wr_other _ a), (rd_wr_other _ (a + 8)), (rd_wr_other _ e) by lia.
    apply rd_wr_same; exact Z0.
  - fold e. rewrite (rd_wr_other _ a), (rd_wr_other _ (a + 8)) by lia.
    apply rd_wr_same; exact P0U.
  - intros b [<-|[]] U. discriminate U.
  - cbn [frees b_used b_addr b_len chain]. fold a e xs. repeat split.
    + rewrite (rd_wr_other _ a), (rd_wr_other _ (a + 8)), (rd_wr_other _ e), (rd_wr_other _ (e + 8)),
        (rd_wr_other _ (xs + 8)) by lia.
      apply rd_wr_same; exact PSU.
    + rewrite (rd_wr_other _ a) by lia. apply rd_wr_same. lia.
    + apply rd_wr_same. exact PEU.
Qed.

(** ** used blocks *)
Fixpoint useds (bl : list blk) : list (Z * Z) :=
  match bl with
  | [] => []
  | b :: t => if b_used b then (b_addr b, b_len b) :: useds t else useds t
  end.

Lemma useds_app l1 l2 : useds (l1 ++ l2) = useds l1 ++ useds l2.
Proof. induction l1 as [|b l1 IH]; cbn; [reflexivity|]. destruct (b_used b); cbn; rewrite IH; reflexivity. Qed.

Lemma in_useds a s bl : In (a, s) (useds bl) <-> In (Blk a s true) bl.
Proof.
  induction bl as [|b bl IH]; cbn; [tauto|].
  destruct b as [ba bs bu]; cbn. destruct bu; cbn; rewrite IH; split.
  - intros [E|H]; [left; congruence|auto].
  - intros [E|H]; [left; congruence|auto].
  - auto.
  - intros [E|H]; [discriminate|exact H].
Qed.

Lemma useds_coalesce bl : useds (coalesce bl) = useds bl.
Proof.
  induction bl as [|b bl IH]; [reflexivity|]. cbn [coalesce useds]. rewrite <- IH.
  destruct (coalesce bl) as [|b2 t]; cbn [useds]; [destruct (b_used b); reflexivity|].
  destruct (b_used b) eqn:U, (b_used b2) eqn:U2; cbn [orb useds b_used b_len b_addr];
    rewrite ?U, ?U2; reflexivity.
Qed.

Lemma useds_taken l1 a s w l2 :
  useds (l1 ++ taken a s w ++ l2) =
  useds l1 ++ (a, if 32 <? s - w then w else s) :: useds l2.
Proof.
  rewrite !useds_app. f_equal. unfold taken. destruct (32 <? s - w); reflexivity.
Qed.

Fixpoint used_sum (bl : list blk) : Z :=
  match bl with
  | [] => 0
  | b :: t => (if b_used b then b_len b else 0) + used_sum t
  end.

Lemma sums s bl e : tiles s bl e -> free_sum bl + used_sum bl = e - s.
Proof.
  revert s; induction bl as [|b bl IH]; intros s; cbn [tiles free_sum used_sum]; [lia|].
  intros (A & B & C & T). specialize (IH _ T). destruct (b_used b); lia.
Qed.

Lemma used_sum_useds bl : used_sum bl = fold_right Z.add 0 (map snd (useds bl)).
Proof. induction bl as [|b bl IH]; cbn [used_sum useds]; [reflexivity|]. destruct (b_used b); cbn; lia. Qed.

Lemma fold_add_perm (l1 l2 : list Z) :
  Permutation l1 l2 -> fold_right Z.add 0 l1 = fold_right Z.add 0 l2.
Proof. induction 1; cbn; lia. Qed.

(** ** the client invariant *)
Definition ent (b : held) : Z * Z := (region_start b, hd_fp b).

Definition good (b : held) : Prop :=
  0 < hd_req b /\ needed (hd_req b) <= hd_fp b <= needed (hd_req b) + 32.

Record corr (bl : list blk) (l : list held) : Prop := {
  co_perm : Permutation (useds bl) (map ent l);
  co_good : Forall good l
}.

Definition inv (c : cfg) (h : heap) (l : list held) : Prop :=
  exists bl, repr c h bl /\ corr bl l.

Lemma corr_in bl l b : corr bl l -> In b l -> In (Blk (hd_ptr b - 16) (hd_fp b) true) bl.
Proof.
  intros C I. apply in_useds. apply Permutation_in with (1 := Permutation_sym (co_perm _ _ C)).
  apply (in_map ent) in I. exact I.
Qed.

Lemma corr_out bl l a s : corr bl l -> In (Blk a s true) bl ->
  exists b, In b l /\ hd_ptr b = a + 16 /\ hd_fp b = s.
Proof.
  intros C I. apply in_useds in I. apply Permutation_in with (1 := co_perm _ _ C) in I.
  apply in_map_iff in I. destruct I as (b & E & I). exists b. split; [exact I|].
  unfold ent, region_start in E. injection E as E1 E2. split; lia.
Qed.

Lemma corr_good bl l b : corr bl l -> In b l -> good b.
Proof. intros C I. eapply Forall_forall; [apply C|exact I]. Qed.

(** Bytes of a held block's payload. *)
Lemma payload_not_free c bl b x q t :
  geo c -> tiles (area_start c) bl (area_end c) -> In b bl -> b_used b = true ->
  In (Blk q t false) bl -> b_addr b <= x < b_addr b + b_len b -> ~ (q <= x < q + t).
Proof.
  intros G T I U F X. pose proof (tiles_sep _ _ _ _ _ T I F) as [E|S].
  - subst b. discriminate U.
  - cbn [b_addr b_len] in S. lia.
Qed.

Lemma pred_free c l1 : let p := last_addr (frees l1) (c_xs c) in
  p = c_xs c \/ exists t, In (Blk p t false) l1.
Proof.
  intros p. pose proof (last_addr_in (frees l1) (c_xs c)) as [X|X]; fold p in X; [left; auto|right].
  apply in_addrs_frees in X. exact X.
Qed.

(** Changing payload bytes of used blocks keeps the representation. *)
Lemma mrepr_payload c m M bl b :
  geo c -> mrepr c m bl -> In b bl -> b_used b = true ->
  (forall x, ~ (b_addr b + 16 <= x < b_addr b + b_len b) -> M x = m x) ->
  mrepr c M bl.
Proof.
  intros G R I U FR. pose proof (r_tiles _ _ _ R) as T.
  pose proof (tiles_in _ _ _ _ T (g_startmod c G) I) as IR.
  assert (HD : forall b', In b' bl -> rd M (b_addr b') = rd m (b_addr b') /\
                                      rd M (b_addr b' + 8) = rd m (b_addr b' + 8)).
  { intros b' I'. pose proof (tiles_in _ _ _ _ T (g_startmod c G) I') as IR'.
    pose proof (tiles_sep _ _ _ _ _ T I I') as [E|S].
    - subst b'. split; apply rd_ext; intros y Y; apply FR; lia.
    - split; apply rd_ext; intros y Y; apply FR; lia. }
  geo_facts G.
  constructor.
  - exact T.
  - apply R.
  - rewrite (rd_ext M m); [apply R|]. intros y Y. apply FR. lia.
  - rewrite (rd_ext M m); [apply R|]. intros y Y. apply FR. lia.
  - rewrite (rd_ext M m); [apply R|]. intros y Y. apply FR. lia.
  - intros b' I' U'. destruct (HD _ I') as [-> ->]. apply R; assumption.
  - eapply chain_ext; [apply R| |].
    + intros q [Q|Q].
      * subst q. apply rd_ext. intros y Y. apply FR. lia.
      * apply in_addrs_frees in Q. destruct Q as (t & Q). apply (HD _ Q).
    + intros q Q. apply in_addrs_frees in Q. destruct Q as (t & Q). apply (HD _ Q).
Qed.

Lemma perm_filter {A} (f : A -> bool) l1 l2 :
  Permutation l1 l2 -> Permutation (filter f l1) (filter f l2).
Proof.
  induction 1; cbn.
  - constructor.
  - destruct (f x); [constructor|]; assumption.
  - destruct (f x), (f y); try apply perm_swap; apply Permutation_refl.
  - eapply Permutation_trans; eassumption.
Qed.

Lemma filter_id {A} (f : A -> bool) l : (forall x, In x l -> f x = true) -> filter f l = l.
Proof.
  induction l as [|x l IH]; intros H; cbn; [reflexivity|].
  rewrite (H x (or_introl eq_refl)), IH; [reflexivity|]. intros y Y. apply H. right; exact Y.
Qed.

Lemma filter_map_comm {A B} (g : A -> B) (f : A -> bool) (f' : B -> bool) l :
  (forall x, f x = f' (g x)) -> map g (filter f l) = filter f' (map g l).
Proof.
  intros H. induction l as [|x l IH]; cbn; [reflexivity|].
  rewrite H. destruct (f' (g x)); cbn; rewrite IH; reflexivity.
Qed.

Lemma corr_free s0 e l1 a s l2 l :
  tiles s0 (l1 ++ Blk a s true :: l2) e ->
  corr (l1 ++ Blk a s true :: l2) l ->
  corr (a_free a (l1 ++ Blk a s true :: l2)) (filter (fun b => negb (hd_ptr b =? a + 16)) l).
Proof.
  intros T C. rewrite (a_free_at _ _ _ _ _ _ T).
  constructor.
  - rewrite useds_coalesce, useds_app. cbn [useds b_used].
    rewrite (filter_map_comm ent _ (fun p => negb (fst p =? a))).
    2:{ intros b. unfold ent, region_start. cbn. f_equal. lia. }
    eapply Permutation_trans; [|apply perm_filter, C].
    rewrite useds_app. cbn [useds b_used b_addr b_len].
    rewrite filter_app. cbn [filter fst]. rewrite Z.eqb_refl. cbn [negb].
    pose proof (tiles_mid _ _ _ _ _ T) as (T1 & A & B & T2). cbn [b_addr b_len] in *.
    rewrite !filter_id.
    + apply Permutation_refl.
    + intros [x t] I. apply in_useds in I. cbn.
      apply in_split in I. destruct I as (k1 & k2 & ->).
      apply tiles_mid in T2. cbn [b_addr b_len] in T2. destruct T2 as (T2 & _).
      apply tiles_le in T2. lia.
    + intros [x t] I. apply in_useds in I. cbn.
      apply in_split in I. destruct I as (k1 & k2 & ->).
      apply tiles_mid in T1. cbn [b_addr b_len] in T1. destruct T1 as (_ & X1 & _ & X2).
      apply tiles_le in X2. lia.
  - pose proof (co_good _ _ C) as F. rewrite Forall_forall in *. intros b I.
    apply filter_In in I. apply F, I.
Qed.

Lemma corr_taken l1 a s l2 l n :
  corr (l1 ++ Blk a s false :: l2) l -> 0 < n -> needed n <= s ->
  corr (l1 ++ taken a s (needed n) ++ l2)
       (Held (a + 16) n (if 32 <? s - needed n then needed n else s) :: l).
Proof.
  intros C N W. constructor.
  - rewrite useds_taken. pose proof (co_perm _ _ C) as P. rewrite useds_app in P. cbn [useds b_used] in P.
    cbn [map]. unfold ent at 1, region_start. cbn [hd_ptr hd_fp].
    replace (a + 16 - 16) with a by lia.
    apply Permutation_sym, Permutation_cons_app, Permutation_sym. exact P.
  - constructor; [|apply C]. unfold good. cbn. split; [exact N|].
    destruct (32 <? s - needed n) eqn:E; lia.
Qed.

(** ** one call *)
Definition same_others (h h' : heap) : Prop := h_cb h' = h_cb h.

Lemma inv_alloc c h l n :
  geo c -> inv c h l -> is_size n ->
  exists h' r, allocate c h n = Ok (h', r) /\
    inv c h' (if r =? 0 then l else Held r n (h_free h - h_free h') :: l) /\
    (r = 0 -> h' = fired h) /\
    (r <> 0 -> 0 < n /\ h_fired h' = h_fired h /\ h_cb h' = h_cb h /\
       h_min h' = Z.min (h_free h') (h_min h) /\
       h_allocs h' = u64 (h_allocs h + 1) /\ h_frees h' = h_frees h /\
       (forall b x, In b l -> hd_ptr b <= x < hd_ptr b + hd_fp b - 16 -> h_mem h' x = h_mem h x)).
Proof.
  intros G (bl & R & C) N.
  pose proof (allocate_spec c h bl n G R N) as AS.
  unfold a_alloc in AS.
  destruct ((0 <? n) && (needed n <? 2 ^ 63)) eqn:OK.
  2:{ exists (fired h), 0. split; [exact AS|]. cbn. split.
      - exists bl. split; [|exact C]. unfold fired. destruct (h_cb h); [|exact R].
        destruct R. constructor; assumption.
      - split; [reflexivity|]. intros X; contradiction X; reflexivity. }
  destruct (a_take (needed n) bl) as [[bl' a]|] eqn:TK.
  2:{ exists (fired h), 0. split; [exact AS|]. cbn. split.
      - exists bl. split; [|exact C]. unfold fired. destruct (h_cb h); [|exact R].
        destruct R. constructor; assumption.
      - split; [reflexivity|]. intros X; contradiction X; reflexivity. }
  destruct AS as (h' & l1 & s & l2 & AE & R' & E1 & E2 & WS & SM & F & MN & AL & FE & CB & FI & FR).
  exists h', (a + 16). split; [exact AE|].
  pose proof (r_tiles _ _ _ (r_mem _ _ _ R)) as T. 
  assert (IB : In (Blk a s false) bl) by (rewrite E1; apply in_elt).
  pose proof (tiles_in _ _ _ _ T (g_startmod c G) IB) as IR. cbn [b_addr b_len] in IR.
  replace (a + 16 =? 0) with false by (geo_facts G; lia).
  split; [|split].
  - exists bl'. split; [exact R'|]. rewrite E2.
    replace (h_free h - h_free h') with (if 32 <? s - needed n then needed n else s) by lia.
    apply corr_taken; [rewrite <- E1; exact C|lia|exact WS].
  - intros X. geo_facts G. lia.
  - intros _. repeat split; auto; [lia|].
    intros b x I X. pose proof (corr_in _ _ _ C I) as BI.
    apply FR.
    + destruct (pred_free c l1) as [P|(t & P)].
      * rewrite P. pose proof (tiles_in _ _ _ _ T (g_startmod c G) BI). cbn in *. geo_facts G. lia.
      * assert (PI : In (Blk (last_addr (frees l1) (c_xs c)) t false) bl).
        { rewrite E1. apply in_or_app; left; exact P. }
        pose proof (tiles_in _ _ _ _ T (g_startmod c G) PI) as PR. cbn in PR.
        pose proof (payload_not_free c bl _ x _ _ G T BI eq_refl PI). cbn in *. lia.
    + pose proof (payload_not_free c bl _ x _ _ G T BI eq_refl IB). cbn in *. lia.
Qed.

Lemma held_lookup c h bl l b :
  geo c -> repr c h bl -> corr bl l -> In b l ->
  exists l1 l2, bl = l1 ++ Blk (hd_ptr b - 16) (hd_fp b) true :: l2.
Proof. intros G R C I. apply in_split. apply corr_in with (l := l); assumption. Qed.

Lemma inv_free c h l b :
  geo c -> inv c h l -> In b l ->
  exists h', deallocate c h (hd_ptr b) = Ok h' /\
    inv c h' (filter (fun x => negb (hd_ptr x =? hd_ptr b)) l) /\
    h_free h' = h_free h + hd_fp b /\ h_min h' = h_min h /\
    h_allocs h' = h_allocs h /\ h_frees h' = u64 (h_frees h + 1) /\
    h_cb h' = h_cb h /\ h_fired h' = h_fired h /\
    (forall b' x, In b' l -> hd_ptr b' <> hd_ptr b ->
                  hd_ptr b' <= x < hd_ptr b' + hd_fp b' - 16 -> h_mem h' x = h_mem h x).
Proof.
  intros G (bl & R & C) I.
  destruct (held_lookup c h bl l b G R C I) as (l1 & l2 & ->).
  pose proof (r_tiles _ _ _ (r_mem _ _ _ R)) as T.
  destruct (deallocate_spec c h l1 (hd_ptr b - 16) (hd_fp b) l2 G R)
    as (h' & DE & R' & F & MN & AL & FE & CB & FI & _ & _ & FR).
  replace (hd_ptr b - 16 + 16) with (hd_ptr b) in DE by lia.
  exists h'. split; [exact DE|]. split.
  - eexists. split; [exact R'|]. pose proof (corr_free _ _ _ _ _ _ _ T C) as CF.
    replace (hd_ptr b - 16 + 16) with (hd_ptr b) in CF by lia. exact CF.
  - repeat split; auto.
    intros b' x I' NE X. pose proof (corr_in _ _ _ C I') as BI.
    apply FR.
    + destruct (pred_free c l1) as [P|(t & P)].
      * rewrite P. pose proof (tiles_in _ _ _ _ T (g_startmod c G) BI). cbn in *. geo_facts G. lia.
      * assert (PI : In (Blk (last_addr (frees l1) (c_xs c)) t false) (l1 ++ Blk (hd_ptr b - 16) (hd_fp b) true :: l2)).
        { apply in_or_app; left; exact P. }
        pose proof (tiles_in _ _ _ _ T (g_startmod c G) PI) as PR. cbn in PR.
        pose proof (payload_not_free c _ _ x _ _ G T BI eq_refl PI). cbn in *. lia.
    + pose proof (corr_in _ _ _ C I) as BI2.
      pose proof (tiles_in _ _ _ _ T (g_startmod c G) BI2) as BR. 
      pose proof (tiles_sep _ _ _ _ _ T BI BI2) as [E|S]; [injection E as E _; lia|].
      cbn in *. lia.
Qed.

Lemma inv_setmem c h l b m :
  geo c -> inv c h l -> In b l ->
  (forall x, ~ (hd_ptr b <= x < hd_ptr b + hd_req b) -> m x = h_mem h x) ->
  inv c (set_mem h m) l.
Proof.
  intros G (bl & R & C) I FR. exists bl. split; [|exact C].
  pose proof (corr_good _ _ _ C I) as (GR & GN & _).
  pose proof (needed_bounds _ GR).
  destruct R as [RM RE RF]. constructor; cbn; [|exact RE|exact RF].
  eapply mrepr_payload; [exact G|exact RM|apply (corr_in _ _ _ C I)|reflexivity|].
  cbn. intros x X. apply FR. lia.
Qed.

Lemma needed_size_mul num size : is_size num -> is_size size ->
  heap_multiply_will_overflow num size = negb (num * size <? W64).
Proof.
  unfold is_size, heap_multiply_will_overflow. change heap_size_max with (W64 - 1). intros A B.
  destruct (0 <? num) eqn:E; cbn [andb].
  - assert (num > 0) by lia.
    destruct (Z.ltb_spec ((W64 - 1) / num) size) as [L|L], (Z.ltb_spec (num * size) W64) as [K|K];
      cbn; try reflexivity; exfalso.
    + assert (size <= (W64 - 1) / num); [|lia].
      apply Z.div_le_lower_bound; lia.
    + assert (num * size <= num * ((W64 - 1) / num)) by (apply Z.mul_le_mono_nonneg_l; lia).
      pose proof (Z.mul_div_le (W64 - 1) num). lia.
  - assert (num = 0) by lia. subst num. cbn. reflexivity.
Qed.

Lemma inv_calloc c h l num size :
  geo c -> inv c h l -> is_size num -> is_size size ->
  exists h' r, callocate c h num size = Ok (h', r) /\
    inv c h' (if r =? 0 then l else Held r (num * size) (h_free h - h_free h') :: l) /\
    (r = 0 -> h' = if num * size <? W64 then fired h else h) /\
    (r <> 0 -> 0 < num * size < W64 /\ h_fired h' = h_fired h /\ h_cb h' = h_cb h /\
       h_min h' = Z.min (h_free h') (h_min h) /\
       h_allocs h' = u64 (h_allocs h + 1) /\ h_frees h' = h_frees h /\
       (forall x, r <= x < r + num * size -> h_mem h' x = 0) /\
       (forall b x, In b l -> hd_ptr b <= x < hd_ptr b + hd_fp b - 16 -> h_mem h' x = h_mem h x)).
Proof.
  intros G I A B. unfold callocate. rewrite needed_size_mul by assumption.
  rewrite negb_involutive.
  assert (P0 : 0 <= num * size) by (unfold is_size in *; apply Z.mul_nonneg_nonneg; lia).
  destruct (num * size <? W64) eqn:OV.
  2:{ exists h, 0. split; [reflexivity|]. split; [exact I|]. split; [reflexivity|]. intros X; contradiction X; reflexivity. }
  rewrite u64_id by lia.
  destruct (inv_alloc c h l (num * size) G I ltac:(unfold is_size; lia)) as (h1 & r & AE & I1 & Z0 & NZ).
  rewrite AE. cbn [bind].
  destruct (Z.eqb_spec r 0) as [E|E]; cbn [negb].
  { exists h1, r. split; [reflexivity|]. subst r. cbn [Z.eqb]. split; [exact I1|].
    split; [intros _; apply Z0; reflexivity|]. intros X; contradiction X; reflexivity. }
  specialize (NZ E). destruct NZ as (NP & FI & CB & MN & AL & FE & FR).
  set (b := Held r (num * size) (h_free h - h_free h1)) in *.
  destruct I1 as (bl & R & C).
  pose proof (corr_in _ _ b C (or_introl eq_refl)) as BI.
  pose proof (corr_good _ _ b C (or_introl eq_refl)) as (GR & GN & _).
  pose proof (r_tiles _ _ _ (r_mem _ _ _ R)) as T.
  pose proof (tiles_in _ _ _ _ T (g_startmod c G) BI) as BR. cbn [b hd_ptr hd_req hd_fp b_addr b_len] in *.
  pose proof (needed_bounds _ NP) as NB.
  unfold memset0.
  replace ((c_base c <=? r) && (r + num * size <=? c_base c + c_size c)) with true by (geo_facts G; lia).
  cbn [bind].
  eexists _, r. split; [reflexivity|].
  assert (NE : r =? 0 = false) by lia. rewrite NE.
  split; [|split; [intros X; contradiction|]].
  - cbn [set_mem h_free]. fold b. apply (inv_setmem c h1 (b :: l) b); [exact G|exists bl; auto|left; reflexivity|].
    cbn [b hd_ptr hd_req]. intros x X.
    replace ((r <=? x) && (x <? r + num * size)) with false by lia. reflexivity.
  - intros _. cbn [set_mem h_fired h_cb h_min h_free h_allocs h_frees h_mem].
    repeat split; auto; try lia.
    + intros x X. replace ((r <=? x) && (x <? r + num * size)) with true by lia. reflexivity.
    + intros b' x I' X.
      assert (I2 : In b' (b :: l)) by (right; exact I').
      pose proof (corr_in _ _ b' C I2) as BI2.
      pose proof (corr_good _ _ b' C I2) as (GR2 & GN2 & _). pose proof (needed_bounds _ GR2).
      destruct ((r <=? x) && (x <? r + num * size)) eqn:XX; [|apply FR with (b := b'); assumption].
      exfalso.
      pose proof (tiles_sep _ _ _ _ _ T BI BI2) as [EE|S].
      * (* two table entries with the same block: excluded by the permutation *)
        injection EE as E1 E2.
        pose proof (co_perm _ _ C) as P. cbn [map] in P.
        assert (ND : NoDup (map fst (useds bl))).
        { clear - T G. pose proof (g_startmod c G) as M. revert T M. generalize (area_start c).
          induction bl as [|d bl IH]; intros s T M; cbn [useds map]; [constructor|].
          cbn [tiles] in T. destruct T as (A1 & A2 & A3 & T).
          assert (M' : (s + b_len d) mod 8 = 0) by lia.
          destruct (b_used d); cbn [map fst]; [|eauto]. constructor; [|eauto].
          intros I. apply in_map_iff in I. destruct I as ([x t] & E & I). cbn in E. subst x.
          apply in_useds in I. pose proof (tiles_in _ _ _ _ T M' I). cbn in *. lia. }
        apply (Permutation_map fst) in P. cbn [map] in P.
        apply (Permutation_NoDup P) in ND. inversion ND as [|? ? NI _]; subst.
        apply NI. rewrite map_map. apply in_map_iff. exists b'. split; [|exact I'].
        unfold ent, region_start. cbn. lia.
      * cbn [b_addr b_len] in S. lia.
Qed.

(** ** every permitted call *)
Lemma inv_apply c h l o :
  geo c -> inv c h l -> permitted l o ->
  exists h' r, apply c h o = Ok (h', r) /\ inv c h' (hold l o r (h_free h) (h_free h')).
Proof.
  intros G I P. destruct o as [n|num size|p| |b|a v]; cbn [permitted apply hold] in *.
  - destruct (inv_alloc c h l n G I P) as (h' & r & E & I' & _). eauto.
  - destruct P as [P1 P2]. destruct (inv_calloc c h l num size G I P1 P2) as (h' & r & E & I' & _). eauto.
  - destruct P as [->|(b & BI & <-)].
    + exists h, 0. split; [reflexivity|].
      rewrite filter_id; [exact I|]. intros b BI. destruct I as (bl & R & C).
      pose proof (corr_in _ _ _ C BI) as X.
      pose proof (tiles_in _ _ _ _ (r_tiles _ _ _ (r_mem _ _ _ R)) (g_startmod c G) X) as XR.
      cbn in XR. geo_facts G. lia.
    + destruct (inv_free c h l b G I BI) as (h' & E & I' & _).
      rewrite E. cbn [bind]. eauto.
  - eexists _, _. split; [reflexivity|]. destruct I as (bl & R & C). exists bl. split; [|exact C].
    destruct R. constructor; assumption.
  - eexists _, _. split; [reflexivity|]. destruct I as (bl & R & C). exists bl. split; [|exact C].
    destruct R. constructor; assumption.
  - destruct P as (V & b & BI & X). unfold client_write.
    pose proof I as (bl & R & C).
    pose proof (corr_in _ _ _ C BI) as BB. pose proof (corr_good _ _ _ C BI) as (GR & GN & _).
    pose proof (needed_bounds _ GR).
    pose proof (tiles_in _ _ _ _ (r_tiles _ _ _ (r_mem _ _ _ R)) (g_startmod c G) BB) as XR.
    cbn in XR.
    replace ((c_base c <=? a) && (a <? c_base c + c_size c)) with true by (geo_facts G; lia).
    cbn [bind]. eexists _, _. split; [reflexivity|].
    apply (inv_setmem c h l b); auto.
    intros x Y. unfold upd. destruct (Z.eqb_spec x a); [lia|reflexivity].
Qed.

Lemma inv_construct c h :
  geo c -> construct c = Ok h -> inv c h [].
Proof.
  intros G E. destruct (construct_spec c G (g_size c G)) as (m & E' & R).
  rewrite E in E'. injection E' as ->.
  eexists. split; [constructor; cbn|constructor].
  - exact R.
  - reflexivity.
  - cbn. lia.
  - cbn. constructor.
  - constructor.
Qed.

Lemma inv_session c h l evs h' l' :
  geo c -> inv c h l -> session c h l evs h' l' -> inv c h' l'.
Proof.
  intros G I S. induction S as [|h l o h1 r evs h2 l2 P A S IH]; [exact I|].
  apply IH. destruct (inv_apply c h l o G I P) as (h1' & r' & A' & I').
  rewrite A in A'. injection A' as <- <-. exact I'.
Qed.

Lemma inv_reachable c h l : geo c -> reachable c h l -> inv c h l.
Proof.
  intros G (h0 & evs & E & S). eapply inv_session; [exact G|eapply inv_construct; eassumption|exact S].
Qed.
