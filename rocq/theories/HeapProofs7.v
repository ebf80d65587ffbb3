(** Exact counters, footprints and free-list statistics. *)
From Coq Require Import Permutation.
From Verif Require Export HeapProofs6.

Section More.
Context (c : cfg) (PL : placed c) (RM : roomy c).
Let G : geo c := placed_geo c PL RM.

Definition cnt (f : event -> bool) (evs : list event) : Z := Z.of_nat (length (filter f evs)).
Lemma cnt_cons f e evs : cnt f (e :: evs) = (if f e then 1 else 0) + cnt f evs.
Proof. unfold cnt. cbn [filter]. destruct (f e); cbn [length]; lia. Qed.

Lemma counts_gen h l evs h' l' :
  session c h l evs h' l' -> inv c h l ->
  u64 (h_allocs h') = u64 (h_allocs h + cnt handed_out evs) /\
  u64 (h_frees h') = u64 (h_frees h + cnt given_back evs) /\
  h_fired h' = h_fired h + alarms (h_cb h) evs /\
  (0 <= h_allocs h < W64 -> 0 <= h_allocs h' < W64) /\ (0 <= h_frees h < W64 -> 0 <= h_frees h' < W64).
Proof.
  induction 1 as [|h l o h1 r evs h2 l2 P A S IH]; intros I.
  { cbn [alarms cnt filter length]. unfold cnt. cbn [filter length]. rewrite !Z.add_0_r. auto. }
  assert (I1 : inv c h1 (hold l o r (h_free h) (h_free h1))).
  { destruct (inv_apply c h l o G I P) as (h1' & r' & A' & I'). rewrite A in A'. injection A' as <- <-. exact I'. }
  destruct (IH I1) as (IA & IF & II & RA & RF). rewrite IA, IF, II. rewrite !cnt_cons. clear IH S I1 IA IF II.
  assert (UR : forall z, 0 <= u64 z < W64) by (intros z; unfold u64; apply Z.mod_pos_bound; rewrite W64_val; lia).
  assert (UA : forall x y, u64 (u64 (x + 1) + y) = u64 (x + (1 + y))).
  { intros. unfold u64. rewrite Zplus_mod_idemp_l. f_equal. lia. }
  destruct o as [n|num size|p| |b|a v]; cbn [permitted apply handed_out given_back alarms] in *.
  - destruct (inv_alloc c h l n G I P) as (h' & r' & A1 & _ & Z0 & NZ).
    rewrite A in A1. injection A1 as <- <-. destruct (Z.eqb_spec r 0) as [X|X]; cbn [negb].
    + rewrite (Z0 X) in *. unfold fired in *. destruct (h_cb h) eqn:CB; cbn [fire h_allocs h_frees h_fired h_cb andb] in *; rewrite ?CB in *; rewrite ?Z.add_0_l;
        (split; [reflexivity|]); (split; [reflexivity|]); (split; [lia|auto]).
    + destruct (NZ X) as (_ & FI & CB & _ & AL & FE & _). rewrite AL, FE, FI, CB, UA, andb_false_r in *.
      rewrite ?Z.add_0_l. split; [reflexivity|]. split; [reflexivity|]. split; [lia|]. split; [intros _; exact (RA (UR _))|exact RF].
  - destruct P as [P1 P2]. destruct (inv_calloc c h l num size G I P1 P2) as (h' & r' & A1 & _ & Z0 & NZ).
    rewrite A in A1. injection A1 as <- <-. destruct (Z.eqb_spec r 0) as [X|X]; cbn [negb].
    + rewrite (Z0 X) in *. rewrite andb_true_r. destruct (num * size <? W64); [|rewrite andb_false_r; auto].
      unfold fired in *. destruct (h_cb h) eqn:CB; cbn [fire h_allocs h_frees h_fired h_cb andb] in *; rewrite ?CB in *; rewrite ?Z.add_0_l;
        (split; [reflexivity|]); (split; [reflexivity|]); (split; [lia|auto]).
    + destruct (NZ X) as (_ & FI & CB & _ & AL & FE & _). rewrite AL, FE, FI, CB, UA, !andb_false_r in *.
      rewrite ?Z.add_0_l. split; [reflexivity|]. split; [reflexivity|]. split; [lia|]. split; [intros _; exact (RA (UR _))|exact RF].
  - destruct P as [->|(b & BI & <-)].
    + cbn in A. injection A as <- _. rewrite ?Z.add_0_l. split; [reflexivity|]. split; [reflexivity|]. split; [reflexivity|]. split; [exact RA|exact RF].
    + destruct (inv_free c h l b G I BI) as (h' & A1 & _ & F & MN & AL & FE & CB & FI & _).
      rewrite A1 in A. cbn in A. injection A as <- _.
      pose proof (held_range c PL RM _ _ _ I BI) as HR.
      replace (hd_ptr b =? 0) with false by (geo_facts G; lia). cbn [negb].
      rewrite AL, FE, UA, FI, CB in *. rewrite ?Z.add_0_l. split; [reflexivity|]. split; [reflexivity|]. split; [lia|]. split; [exact RA|intros _; exact (RF (UR _))].
  - injection A as <- _. rewrite ?Z.add_0_l. split; [reflexivity|]. split; [reflexivity|]. split; [reflexivity|]. split; [exact RA|exact RF].
  - injection A as <- _. rewrite ?Z.add_0_l. split; [reflexivity|]. split; [reflexivity|]. split; [reflexivity|]. split; [exact RA|exact RF].
  - unfold client_write in A. destruct ((c_base c <=? a) && (a <? c_base c + c_size c)); [|discriminate].
    cbn in A. injection A as <- _. rewrite ?Z.add_0_l. split; [reflexivity|]. split; [reflexivity|]. split; [reflexivity|]. split; [exact RA|exact RF].
Qed.

Lemma counts h0 evs h l :
  construct c = Ok h0 -> session c h0 [] evs h l ->
  h_allocs h = Z.of_nat (length (filter handed_out evs)) mod W64 /\
  h_frees h = Z.of_nat (length (filter given_back evs)) mod W64 /\
  h_fired h = alarms false evs.
Proof.
  intros E S. destruct (counts_gen _ _ _ _ _ S (inv_construct c h0 G E)) as (A & F & I & RA & RF).
  destruct (construct_spec c G (g_size c G)) as (m & E' & _). rewrite E in E'. injection E' as ->.
  cbn in A, F, I, RA, RF.
  assert (X0 : 0 <= 0 < W64) by (rewrite W64_val; lia).
  specialize (RA X0). specialize (RF X0). rewrite u64_id in A, F by assumption. auto.
Qed.

(** ** gaps *)
Lemma free_gap bl l a s :
  tiles (area_start c) bl (area_end c) -> no_adj bl -> corr bl l ->
  In (Blk a s false) bl -> gap c l a s.
Proof.
  intros T NA C I. pose proof (tiles_in _ _ _ _ T (g_startmod c G) I) as IR. cbn in IR.
  split; [lia|]. split; [|split].
  - intros b B. pose proof (corr_in _ _ _ C B) as BI.
    pose proof (tiles_sep _ _ _ _ _ T I BI) as [E|S]; [discriminate E|]. unfold disjoint, region_start. cbn in S. lia.
  - apply in_split in I. destruct I as (l1 & l2 & ->).
    destruct (list_last_cases l1) as [->|(l1' & x & ->)].
    + left. cbn in T. tauto.
    + right. rewrite <- app_assoc in T, NA, C. cbn [app] in T, NA, C.
      pose proof (tiles_mid _ _ _ _ _ T) as (_ & _ & _ & T2). cbn [tiles b_addr b_len] in T2.
      apply no_adj_mid in NA. destruct NA as [_ [U _]]. cbn [b_used] in U. rewrite orb_false_r in U.
      destruct x as [xa xs xu]. cbn in U, T2. subst xu.
      destruct (corr_out _ _ xa xs C ltac:(apply in_elt)) as (b & BI & B1 & B2).
      exists b. split; [exact BI|]. unfold region_start. lia.
  - apply in_split in I. destruct I as (l1 & l2 & ->).
    pose proof (tiles_mid _ _ _ _ _ T) as (_ & _ & _ & T2). cbn [b_addr b_len] in T2.
    destruct l2 as [|x l2].
    + left. exact T2.
    + right. cbn [tiles] in T2. apply no_adj_mid in NA. destruct NA as [_ [U _]]. cbn [b_used orb] in U.
      destruct x as [xa xs xu]. cbn in U, T2. subst xu.
      destruct (corr_out _ _ xa xs C ltac:(apply in_or_app; right; right; left; reflexivity)) as (b & BI & B1 & B2).
      exists b. split; [exact BI|]. unfold region_start. lia.
Qed.

Lemma gap_free bl l a n :
  tiles (area_start c) bl (area_end c) -> no_adj bl -> corr bl l ->
  gap c l a n -> In (Blk a n false) bl.
Proof.
  intros T NA C (N & D & LO & HI).
  assert (ST : forall b, In b l -> area_start c <= region_start b /\ region_start b + hd_fp b <= area_end c /\ 16 <= hd_fp b).
  { intros b B. pose proof (tiles_in _ _ _ _ T (g_startmod c G) (corr_in _ _ _ C B)). cbn in *. unfold region_start. lia. }
  assert (AR : area_start c <= a < area_end c).
  { split.
    - destruct LO as [->|(b & B & <-)]; [lia|]. pose proof (ST b B). lia.
    - destruct HI as [HI|(b & B & E)]; [lia|]. pose proof (ST b B). lia. }
  destruct (tiles_point bl _ _ a T AR) as (l1 & [x t u] & l2 & E & X). cbn in X.
  assert (BI : In (Blk x t u) bl) by (rewrite E; apply in_elt).
  destruct u.
  { destruct (corr_out _ _ _ _ C BI) as (b & B & B1 & B2). specialize (D b B). unfold disjoint, region_start in D. lia. }
  pose proof (free_gap bl l x t T NA C BI) as (_ & D' & LO' & HI').
  assert (x = a).
  { destruct LO as [->|(b & B & <-)].
    - pose proof (tiles_in _ _ _ _ T (g_startmod c G) BI). cbn in *. lia.
    - specialize (D' b B). pose proof (ST b B). unfold disjoint in D'. lia. }
  subst x.
  assert (a + t = a + n).
  { destruct HI as [HI|(b & B & HI)].
    - destruct HI' as [HI'|(b' & B' & HI')]; [lia|]. specialize (D b' B'). pose proof (ST b' B'). unfold disjoint in D. lia.
    - specialize (D' b B). pose proof (ST b B). unfold disjoint in D'.
      destruct HI' as [HI'|(b' & B' & HI')]; [lia|]. specialize (D b' B'). pose proof (ST b' B'). unfold disjoint in D. lia. }
  replace n with t by lia. exact BI.
Qed.

Lemma ceiling_spec l a e :
  (e = area_end c \/ exists b, In b l /\ region_start b = e) -> a <= e -> e <= area_end c ->
  (forall b, In b l -> a <= region_start b -> e <= region_start b) ->
  ceiling c l a = e.
Proof.
  unfold ceiling. intros E AE EE M.
  set (f := fun b e => if a <=? region_start b then Z.min (region_start b) e else e).
  assert (LO : forall k, (forall b, In b k -> a <= region_start b -> e <= region_start b) -> e <= fold_right f (area_end c) k).
  { induction k as [|b k IH]; cbn [fold_right]; intros Q; [exact EE|]. unfold f at 1.
    specialize (IH (fun x X => Q x (or_intror X))). specialize (Q b (or_introl eq_refl)).
    destruct (Z.leb_spec a (region_start b)); lia. }
  assert (HI : forall k b, In b k -> a <= region_start b -> fold_right f (area_end c) k <= region_start b).
  { induction k as [|x k IH]; intros b []; cbn [fold_right]; unfold f at 1; intros L.
    - subst x. destruct (Z.leb_spec a (region_start b)); lia.
    - specialize (IH b H L). destruct (a <=? region_start x); lia. }
  assert (TOP : forall k, fold_right f (area_end c) k <= area_end c).
  { induction k as [|x k IH]; cbn [fold_right]; [lia|]. unfold f at 1. destruct (a <=? region_start x); lia. }
  specialize (LO l M). specialize (TOP l).
  destruct E as [->|(b & B & EB)]; [lia|]. specialize (HI l b B ltac:(lia)). lia.
Qed.

Lemma footprint h l n h' r :
  reachable c h l -> is_size n -> allocate c h n = Ok (h', r) -> r <> 0 ->
  let room := ceiling c l (r - 16) - (r - 16) in
  free_heap_size h - free_heap_size h' = if room - needed n <=? 32 then room else needed n.
Proof.
  intros R N A NZ. cbn zeta. apply (inv_reachable _ _ _ G) in R. destruct R as (bl & R & C).
  pose proof (allocate_spec c h bl n G R N) as AS.
  pose proof (r_tiles _ _ _ (r_mem _ _ _ R)) as T. pose proof (r_noadj _ _ _ (r_mem _ _ _ R)) as NA.
  destruct (a_alloc bl n) as [[bl' a]|]; [|rewrite A in AS; injection AS as _ ->; contradiction].
  destruct AS as (h1 & l1 & s & l2 & AE & R' & E1 & E2 & WS & SM & F & _).
  rewrite A in AE. injection AE as <- ->.
  assert (IB : In (Blk a s false) bl) by (rewrite E1; apply in_elt).
  pose proof (tiles_in _ _ _ _ T (g_startmod c G) IB) as IR. cbn in IR.
  pose proof (free_gap bl l a s T NA C IB) as (S0 & D & _ & HI).
  replace (a + 16 - 16) with a by lia.
  rewrite (ceiling_spec l a (a + s)).
  - unfold free_heap_size. rewrite F.
    destruct (Z.ltb_spec 32 (s - needed n)), (Z.leb_spec (a + s - a - needed n) 32); lia.
  - destruct HI as [HI|(b & B & HI)]; [left; exact HI|right; eauto].
  - lia.
  - lia.
  - intros b B L. specialize (D b B). unfold disjoint in D.
    pose proof (tiles_in _ _ _ _ T (g_startmod c G) (corr_in _ _ _ C B)). cbn in *. lia.
Qed.

(** ** statistics *)
Definition mx (gs : list (Z * Z)) (k : Z) : Z := fold_right (fun g m => Z.max (snd g) m) k gs.
Definition mn (gs : list (Z * Z)) (k : Z) : Z := fold_right (fun g m => Z.min (snd g) m) k gs.
Lemma mx_pull gs x k : mx gs (Z.max x k) = Z.max x (mx gs k).
Proof. unfold mx. induction gs as [|g gs IH]; cbn [fold_right]; [reflexivity|]. rewrite IH. lia. Qed.
Lemma mn_pull gs x k : mn gs (Z.min x k) = Z.min x (mn gs k).
Proof. unfold mn. induction gs as [|g gs IH]; cbn [fold_right]; [reflexivity|]. rewrite IH. lia. Qed.

Lemma stats_walk_spec m e fl : forall fuel prev b x y,
  chain m prev fl e -> (forall q, In q (addrs fl) -> hdr_ok c q /\ q <> e) ->
  (length fl < fuel)%nat ->
  stats_walk fuel c m (head_addr fl e) e (u64 b) x y =
    Ok (u64 (b + Z.of_nat (length fl)), mx fl x, mn fl y).
Proof.
  induction fl as [|[a s] fl IH]; intros fuel prev b x y CH HO FU; destruct fuel as [|fuel]; try (cbn in FU; lia);
    cbn [stats_walk head_addr].
  - rewrite Z.eqb_refl. cbn. rewrite Z.add_0_r. reflexivity.
  - destruct (HO a (or_introl eq_refl)) as [AO NE]. cbn [fst].
    destruct (Z.eqb_spec a e) as [X|X]; [contradiction|].
    cbn [chain] in CH. destruct CH as (_ & SZ & CH).
    rewrite ld_size_ok, ld_next_ok by assumption. cbn [bind].
    rewrite SZ, (chain_next _ _ _ _ CH), prot_prot.
    replace (u64 (u64 b + 1)) with (u64 (b + 1)) by (unfold u64; rewrite Zplus_mod_idemp_l; reflexivity).
    rewrite (IH fuel a (b + 1)); [|exact CH|intros q Q; apply HO; right; exact Q|cbn in FU; lia].
    replace (if x <? s then s else x) with (Z.max s x) by (destruct (Z.ltb_spec x s); lia).
    replace (if s <? y then s else y) with (Z.min s y) by (destruct (Z.ltb_spec s y); lia).
    rewrite mx_pull, mn_pull. cbn [length mx mn fold_right snd]. do 3 f_equal. f_equal. lia.
Qed.

Lemma stats_gen h bl l :
  repr c h bl -> corr bl l ->
  v_port_get_heap_stats c h =
    Ok (Stats (h_free h) (mx (frees bl) 0) (mn (frees bl) port_max_delay) (Z.of_nat (length (frees bl)))
              (h_min h) (h_allocs h) (h_frees h)).
Proof.
  intros R C. pose proof (r_mem _ _ _ R) as RM'. pose proof (r_tiles _ _ _ RM') as T.
  pose proof (r_chain _ _ _ RM') as CH.
  assert (HO : forall q, In q (addrs (frees bl)) -> hdr_ok c q /\ q <> area_end c).
  { intros q Q. pose proof (frees_addrs_range _ _ _ _ T (g_startmod c G) Q). geo_facts G.
    split; [split; [lia|left; lia]|lia]. }
  pose proof (frees_len _ _ _ T) as FL.
  unfold v_port_get_heap_stats. rewrite ld_next_ok by (try exact G; apply hdr_ok_xs; exact G). cbn [bind].
  rewrite (chain_next _ _ _ _ CH), prot_prot.
  assert (NZ : head_addr (frees bl) (area_end c) =? 0 = false).
  { destruct (frees bl) as [|[a s] fl]; cbn [head_addr fst]; [geo_facts G; lia|].
    destruct (HO a (or_introl eq_refl)) as [[_ X] _]. geo_facts G. lia. }
  rewrite NZ, (r_end _ _ _ R).
  pose proof (stats_walk_spec _ _ _ (walk_fuel c) (c_xs c) 0 0 port_max_delay CH HO) as SW.
  change (u64 0) with 0 in SW. rewrite SW.
  2:{ unfold walk_fuel. geo_facts G. lia. }
  cbn [bind]. rewrite Z.add_0_l, u64_id; [reflexivity|]. geo_facts G. rewrite W64_val. lia.
Qed.

Lemma frees_nodup2 bl : tiles (area_start c) bl (area_end c) -> NoDup (frees bl).
Proof.
  intros T. pose proof (frees_nodup _ _ _ T (g_startmod c G)) as ND. unfold addrs in ND.
  apply NoDup_map_inv in ND. exact ND.
Qed.

Lemma free_sum_frees bl : free_sum bl = fold_right Z.add 0 (map snd (frees bl)).
Proof. induction bl as [|b bl IH]; cbn [free_sum frees]; [reflexivity|]. destruct (b_used b); cbn; lia. Qed.

Lemma mx_map gs k : mx gs k = fold_right Z.max k (map snd gs).
Proof. unfold mx. induction gs as [|g gs IH]; cbn [fold_right map]; [reflexivity|]. rewrite IH. reflexivity. Qed.
Lemma mn_map gs k : mn gs k = fold_right Z.min k (map snd gs).
Proof. unfold mn. induction gs as [|g gs IH]; cbn [fold_right map]; [reflexivity|]. rewrite IH. reflexivity. Qed.

Lemma stats h l :
  reachable c h l ->
  exists st gs, v_port_get_heap_stats c h = Ok st /\
    NoDup gs /\ (forall a n, In (a, n) gs <-> gap c l a n) /\
    st_blocks st = Z.of_nat (length gs) /\
    st_largest st = fold_right Z.max 0 (map snd gs) /\
    st_smallest st = fold_right Z.min 0xffffffff (map snd gs) /\
    st_available st = free_heap_size h /\ free_heap_size h = fold_right Z.add 0 (map snd gs) /\
    st_minimum st = minimum_ever_free_heap_size h /\
    st_allocs st = h_allocs h /\ st_frees st = h_frees h.
Proof.
  intros R. apply (inv_reachable _ _ _ G) in R. destruct R as (bl & R & C).
  pose proof (r_tiles _ _ _ (r_mem _ _ _ R)) as T. pose proof (r_noadj _ _ _ (r_mem _ _ _ R)) as NA.
  eexists _, (frees bl). split; [exact (stats_gen h bl l R C)|].
  split; [exact (frees_nodup2 bl T)|]. split.
  - intros a n. rewrite in_frees. split; [apply free_gap|apply gap_free]; assumption.
  - cbn [st_blocks st_largest st_smallest st_available st_minimum st_allocs st_frees].
    split; [reflexivity|]. split; [apply mx_map|]. split; [apply mn_map|]. split; [reflexivity|].
    split; [unfold free_heap_size; rewrite (r_free _ _ _ R); apply free_sum_frees|].
    split; [reflexivity|]. split; reflexivity.
Qed.

Lemma max_in gs k w : k < w -> (w <= fold_right Z.max k gs <-> exists x, In x gs /\ w <= x).
Proof.
  intros K. induction gs as [|g gs IH]; cbn [fold_right].
  - split; [lia|intros (x & [] & _)].
  - split.
    + intros L. destruct (Z_le_gt_dec w g) as [Y|Y]; [exists g; split; [left; reflexivity|exact Y]|].
      destruct (proj1 IH ltac:(lia)) as (x & I & X). exists x. split; [right; exact I|exact X].
    + intros (x & [<-|I] & X); [lia|]. pose proof (proj2 IH (ex_intro _ x (conj I X))). lia.
Qed.

Lemma alloc_iff_largest h l n h' r st :
  reachable c h l -> is_size n -> 0 < n -> allocate c h n = Ok (h', r) ->
  v_port_get_heap_stats c h = Ok st -> (r <> 0 <-> needed n <= st_largest st).
Proof.
  intros R N NP A ST. destruct (stats h l R) as (st' & gs & ST' & _ & GS & _ & LG & _).
  rewrite ST in ST'. injection ST' as <-. rewrite LG.
  destruct (first_fit c PL RM h l n h' r R N A) as [FF _]. rewrite FF.
  pose proof (needed_bounds _ NP) as NB. rewrite max_in by lia.
  apply (inv_reachable _ _ _ G) in R. destruct R as (bl & R & C).
  pose proof (r_tiles _ _ _ (r_mem _ _ _ R)) as T. pose proof (r_noadj _ _ _ (r_mem _ _ _ R)) as NA.
  split.
  - intros (_ & _ & a & W).
    destruct (window_in_free c PL RM bl l a n (or_intror (conj T NA)) T NA C NP W) as (q & t & F & Q1 & Q2).
    apply in_frees in F. exists t. split; [|lia]. apply in_map_iff. exists (q, t). split; [reflexivity|].
    apply GS. apply (free_gap bl l); assumption.
  - intros (x & I & X). apply in_map_iff in I. destruct I as ([a t] & E & I). cbn in E. subst t.
    apply GS in I. apply (gap_free bl l) in I; try assumption.
    pose proof (tiles_in _ _ _ _ T (g_startmod c G) I) as IR. cbn in IR.
    split; [exact NP|]. split; [rewrite W64_val; geo_facts G; lia|].
    exists a. eapply (free_is_window c PL RM); eassumption.
Qed.
End More.
