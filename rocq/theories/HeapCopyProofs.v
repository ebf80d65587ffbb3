From Verif Require Export HeapProofs7 HeapUseProofs HeapCopySpec.

Definition buf (c : cfg) (x : Z) : Prop := c_base c <= x < c_base c + c_size c.
Definition hd (c : cfg) (x : Z) : Prop := c_xs c <= x < c_xs c + 16.

(** ** a representation carried over to another list head *)
Lemma chain_move m1 m2 e fl : forall p1 p2,
  rd m2 p2 = rd m1 p1 ->
  (forall a s, In (a, s) fl -> rd m2 a = rd m1 a /\ rd m2 (a + 8) = rd m1 (a + 8)) ->
  chain m1 p1 fl e -> chain m2 p2 fl e.
Proof.
  induction fl as [|[a s] fl IH]; intros p1 p2 E F C; cbn [chain] in *.
  - rewrite E. exact C.
  - destruct C as (C1 & C2 & C3). destruct (F a s (or_introl eq_refl)) as (F1 & F2).
    rewrite E, F2. split; [exact C1|]. split; [exact C2|].
    apply (IH a a F1); [|exact C3]. intros x t I. apply (F x t). right. exact I.
Qed.

Lemma mrepr_move c1 c2 m1 m2 bl :
  geo c1 -> c_base c2 = c_base c1 -> c_size c2 = c_size c1 ->
  (forall x, buf c1 x -> m2 x = m1 x) ->
  rd m2 (c_xs c2) = rd m1 (c_xs c1) -> rd m2 (c_xs c2 + 8) = rd m1 (c_xs c1 + 8) ->
  mrepr c1 m1 bl -> mrepr c2 m2 bl.
Proof.
  intros G B S F X1 X2 [T NA XS ES EN U CH].
  assert (AS : area_start c2 = area_start c1) by (unfold area_start; rewrite B; reflexivity).
  assert (AE : area_end c2 = area_end c1) by (unfold area_end; rewrite B, S; reflexivity).
  assert (F8 : forall x, c_base c1 <= x -> x + 8 <= c_base c1 + c_size c1 -> rd m2 x = rd m1 x).
  { intros x Y1 Y2. apply rd_ext. intros y Y. apply F. unfold buf. lia. }
  assert (FB : forall b, In b bl -> rd m2 (b_addr b) = rd m1 (b_addr b) /\ rd m2 (b_addr b + 8) = rd m1 (b_addr b + 8)).
  { intros b I. pose proof (tiles_in _ _ _ _ T (g_startmod c1 G) I). geo_facts G. split; apply F8; lia. }
  constructor.
  - rewrite AS, AE. exact T.
  - exact NA.
  - rewrite X2. exact XS.
  - rewrite AE, F8; [exact ES| |]; geo_facts G; lia.
  - rewrite AE, F8; [exact EN| |]; geo_facts G; lia.
  - intros b I UB. destruct (FB b I) as (E1 & E2). rewrite E1, E2. exact (U b I UB).
  - rewrite AE. apply (chain_move m1 m2 _ _ (c_xs c1)); [exact X1| |exact CH].
    intros a s I. apply in_frees in I. exact (FB _ I).
Qed.

Lemma repr_set c h bl l b m :
  geo c -> repr c h bl -> corr bl l -> In b l ->
  (forall x, ~ (hd_ptr b <= x < hd_ptr b + hd_req b) -> m x = h_mem h x) ->
  repr c (set_mem h m) bl.
Proof.
  intros G R C I FR.
  pose proof (corr_good _ _ _ C I) as (GR & GN & _).
  pose proof (needed_bounds _ GR).
  destruct R as [RMM RE RF]. constructor; cbn; [|exact RE|exact RF].
  eapply mrepr_payload; [exact G|exact RMM|apply (corr_in _ _ _ C I)|reflexivity|].
  cbn. intros x X. apply FR. lia.
Qed.

Lemma held_in c h l b :
  geo c -> inv c h l -> In b l ->
  area_start c + 16 <= hd_ptr b /\ 0 < hd_req b /\ hd_ptr b + hd_req b <= area_end c.
Proof.
  intros G (bl & R & C) I. pose proof (corr_in _ _ _ C I) as BI.
  pose proof (corr_good _ _ _ C I) as (GR & GN). pose proof (needed_bounds _ GR).
  pose proof (tiles_in _ _ _ _ (r_tiles _ _ _ (r_mem _ _ _ R)) (g_startmod c G) BI). cbn in *. lia.
Qed.

(** ** calls touch the buffer and the list head only *)
Lemma alloc_frame c h l n h' r :
  geo c -> inv c h l -> is_size n -> allocate c h n = Ok (h', r) ->
  forall x, ~ buf c x -> ~ hd c x -> h_mem h' x = h_mem h x.
Proof.
  intros G (bl & R & C) N A x X1 X2. pose proof (allocate_spec c h bl n G R N) as S.
  destruct (a_alloc bl n) as [[bl' a]|].
  - destruct S as (h1 & l1 & s & l2 & A' & R' & E1 & _ & _ & _ & _ & _ & _ & _ & _ & _ & FR).
    rewrite A in A'. injection A' as <- _.
    pose proof (r_tiles _ _ _ (r_mem _ _ _ R)) as T. rewrite E1 in T.
    pose proof (pred_facts c l1 _ l2 G T) as ((_ & PO) & _).
    pose proof (tiles_in _ _ _ (Blk a s false) T (g_startmod c G) ltac:(apply in_elt)) as IR. cbn in IR.
    unfold buf, hd in *. geo_facts G. apply FR; [destruct PO as [PO|PO]; [lia|rewrite PO; lia]|lia].
  - rewrite A in S. injection S as -> _. unfold fired. destruct (h_cb h); reflexivity.
Qed.

Lemma apply_frame c h l o h' r :
  geo c -> inv c h l -> permitted l o -> apply c h o = Ok (h', r) ->
  forall x, ~ buf c x -> ~ hd c x -> h_mem h' x = h_mem h x.
Proof.
  intros G IV P A x X1 X2. destruct o as [n|num size|p| |b|a v]; cbn [permitted apply] in *.
  - eapply alloc_frame; eassumption.
  - destruct P as (P1 & P2). unfold callocate in A.
    rewrite needed_size_mul in A by assumption. rewrite negb_involutive in A.
    destruct (num * size <? W64) eqn:OV; [|injection A as <- _; reflexivity].
    assert (P0 : 0 <= num * size) by (unfold is_size in *; apply Z.mul_nonneg_nonneg; lia).
    rewrite u64_id in A by lia.
    destruct (allocate c h (num * size)) as [[h1 q]| |] eqn:E; cbn [bind] in A; try discriminate.
    pose proof (alloc_frame c h l (num * size) h1 q G IV ltac:(unfold is_size; lia) E x X1 X2) as F.
    destruct (q =? 0); cbn [negb] in A; [injection A as <- _; exact F|].
    unfold memset0 in A. destruct ((c_base c <=? q) && (q + num * size <=? c_base c + c_size c)) eqn:RG; [|discriminate].
    cbn [bind] in A. injection A as <- _. cbn [set_mem h_mem].
    replace ((q <=? x) && (x <? q + num * size)) with false by (unfold buf in X1; lia). exact F.
  - destruct (deallocate c h p) as [h1| |] eqn:E; cbn [bind] in A; try discriminate. injection A as <- _.
    destruct P as [->|(b & BI & <-)].
    + rewrite deallocate_null in E. injection E as <-. reflexivity.
    + destruct IV as (bl & R & C). destruct (held_lookup c h bl l b G R C BI) as (l1 & l2 & ->).
      destruct (deallocate_spec c h l1 (hd_ptr b - 16) (hd_fp b) l2 G R)
        as (h2 & D & _ & _ & _ & _ & _ & _ & _ & _ & _ & FR).
      replace (hd_ptr b - 16 + 16) with (hd_ptr b) in D by lia. rewrite E in D. injection D as <-.
      pose proof (r_tiles _ _ _ (r_mem _ _ _ R)) as T.
      pose proof (pred_facts c l1 _ l2 G T) as ((_ & PO) & _).
      pose proof (tiles_in _ _ _ (Blk (hd_ptr b - 16) (hd_fp b) true) T (g_startmod c G) ltac:(apply in_elt)) as IR. cbn in IR.
      unfold buf, hd in *. geo_facts G. apply FR; [destruct PO as [PO|PO]; [lia|rewrite PO; lia]|lia].
  - injection A as <- _. reflexivity.
  - injection A as <- _. reflexivity.
  - unfold client_write in A. destruct ((c_base c <=? a) && (a <? c_base c + c_size c)) eqn:RG; [|discriminate].
    cbn [bind] in A. injection A as <- _. cbn [set_mem h_mem]. unfold upd.
    destruct (Z.eqb_spec x a); [unfold buf in X1; lia|reflexivity].
Qed.

Lemma session_frame c h l evs h' l' :
  session c h l evs h' l' -> geo c -> inv c h l ->
  forall x, ~ buf c x -> ~ hd c x -> h_mem h' x = h_mem h x.
Proof.
  induction 1 as [|h l o h1 r evs h2 l2 P A S IH]; intros G IV x X1 X2; [reflexivity|].
  rewrite IH; [|exact G| |exact X1|exact X2].
  - eapply apply_frame; eassumption.
  - destruct (inv_apply c h l o G IV P) as (h1' & r' & A' & IV'). rewrite A in A'. injection A' as <- <-. exact IV'.
Qed.

(** ** two list heads over one buffer *)
Section Two.
Context (c1 c2 : cfg) (G1 : geo c1) (G2 : geo c2).
Context (EB : c_base c2 = c_base c1) (ES : c_size c2 = c_size c1).

Record twin2 (k : Z) (h1 h2 : heap) (l : list held) : Prop := Tw {
  tw_bl : exists bl, repr c1 h1 bl /\ repr c2 h2 bl /\ corr bl l;
  tw_min : h_min h1 = h_min h2;
  tw_allocs : h_allocs h1 = h_allocs h2;
  tw_frees : h_frees h1 = h_frees h2;
  tw_cb : h_cb h1 = h_cb h2;
  tw_fired : h_fired h1 = h_fired h2 + k
}.

Lemma twin2_free k h1 h2 l : twin2 k h1 h2 l -> h_free h1 = h_free h2.
Proof. intros [(bl & R1 & R2 & _) _ _ _ _ _]. rewrite (r_free _ _ _ R1), (r_free _ _ _ R2). reflexivity. Qed.

Lemma repr_fired2 c h bl : repr c h bl -> repr c (fired h) bl.
Proof. intros R. unfold fired. destruct (h_cb h); [|exact R]. destruct R. constructor; assumption. Qed.

Lemma twin2_alloc k h1 h2 l n :
  twin2 k h1 h2 l -> is_size n ->
  exists h1' h2' r, allocate c1 h1 n = Ok (h1', r) /\ allocate c2 h2 n = Ok (h2', r) /\
    twin2 k h1' h2' (if r =? 0 then l else Held r n (h_free h1 - h_free h1') :: l).
Proof.
  intros TW N. pose proof (twin2_free _ _ _ _ TW) as FE. destruct TW as [(bl & R1 & R2 & C) T1 T2 T3 T4 T5].
  pose proof (allocate_spec c1 h1 bl n G1 R1 N) as A1.
  pose proof (allocate_spec c2 h2 bl n G2 R2 N) as A2.
  destruct (a_alloc bl n) as [[bl' a]|] eqn:AA.
  - destruct A1 as (h1' & k1 & s & k2 & AE1 & R1' & E1 & E2 & WS & SM & F1 & M1 & N1 & O1 & P1 & Q1 & _).
    destruct A2 as (h2' & j1 & s2 & j2 & AE2 & R2' & _ & _ & _ & _ & F2 & M2 & N2 & O2 & P2 & Q2 & _).
    exists h1', h2', (a + 16). split; [exact AE1|]. split; [exact AE2|].
    assert (FE' : h_free h1' = h_free h2') by (rewrite (r_free _ _ _ R1'), (r_free _ _ _ R2'); reflexivity).
    pose proof (r_tiles _ _ _ (r_mem _ _ _ R1)) as T.
    assert (IB : In (Blk a s false) bl) by (rewrite E1; apply in_elt).
    pose proof (tiles_in _ _ _ _ T (g_startmod c1 G1) IB) as IR. cbn in IR.
    replace (a + 16 =? 0) with false by (geo_facts G1; lia).
    constructor; [|rewrite M1, M2; congruence|congruence|congruence|congruence|lia].
    + exists bl'. split; [exact R1'|]. split; [exact R2'|]. rewrite E2.
      replace (h_free h1 - h_free h1') with (if 32 <? s - needed n then needed n else s) by lia.
      unfold a_alloc in AA. destruct (0 <? n) eqn:N0; [|discriminate].
      apply corr_taken; [rewrite <- E1; exact C|lia|exact WS].
  - exists (fired h1), (fired h2), 0. split; [exact A1|]. split; [exact A2|].
    cbn [Z.eqb]. unfold fired. rewrite <- T4.
    constructor; [|destruct (h_cb h1) eqn:EC; cbn [fire h_min h_allocs h_frees h_cb h_fired]; congruence || lia ..].
    exists bl. pose proof (repr_fired2 c1 h1 bl R1) as RF1. pose proof (repr_fired2 c2 h2 bl R2) as RF2.
    unfold fired in RF1, RF2. rewrite <- T4 in RF2. split; [exact RF1|]. split; [exact RF2|exact C].
Qed.

Lemma twin2_set k h1 h2 l b m1 m2 :
  twin2 k h1 h2 l -> In b l ->
  (forall x, ~ (hd_ptr b <= x < hd_ptr b + hd_req b) -> m1 x = h_mem h1 x) ->
  (forall x, ~ (hd_ptr b <= x < hd_ptr b + hd_req b) -> m2 x = h_mem h2 x) ->
  twin2 k (set_mem h1 m1) (set_mem h2 m2) l.
Proof.
  intros [(bl & R1 & R2 & C) T1 T2 T3 T4 T5] I F1 F2.
  constructor; cbn [set_mem h_min h_allocs h_frees h_cb h_fired]; try assumption.
  exists bl. split; [eapply repr_set; eassumption|]. split; [eapply repr_set; eassumption|exact C].
Qed.

Lemma twin2_apply k h1 h2 l o :
  twin2 k h1 h2 l -> permitted l o ->
  exists h1' h2' r, apply c1 h1 o = Ok (h1', r) /\ apply c2 h2 o = Ok (h2', r) /\
    twin2 k h1' h2' (hold l o r (h_free h1) (h_free h1')).
Proof.
  intros TW P.
  assert (IV1 : inv c1 h1 l) by (destruct TW as [(bl & R1 & R2 & C) _ _ _ _ _]; exists bl; auto).
  destruct o as [n|num size|p| |b|a v]; cbn [permitted apply hold] in *.
  - eapply twin2_alloc; eassumption.
  - destruct P as [P1 P2]. unfold callocate. rewrite needed_size_mul by assumption.
    rewrite negb_involutive.
    assert (P0 : 0 <= num * size) by (unfold is_size in *; apply Z.mul_nonneg_nonneg; lia).
    destruct (num * size <? W64) eqn:OV.
    2:{ exists h1, h2, 0. split; [reflexivity|]. split; [reflexivity|exact TW]. }
    rewrite u64_id by lia.
    destruct (twin2_alloc k h1 h2 l (num * size) TW ltac:(unfold is_size; lia))
      as (h1' & h2' & r & A1 & A2 & TW').
    rewrite A1, A2. cbn [bind].
    destruct (Z.eqb_spec r 0) as [X|X]; cbn [negb].
    { exists h1', h2', r. subst r. cbn [Z.eqb]. split; [reflexivity|]. split; [reflexivity|exact TW']. }
    set (q := Held r (num * size) (h_free h1 - h_free h1')) in *.
    assert (ID : In q (q :: l)) by (left; reflexivity).
    assert (IV' : inv c1 h1' (q :: l)) by (destruct TW' as [(bl & R1 & R2 & C) _ _ _ _ _]; exists bl; auto).
    pose proof (held_in c1 h1' _ q G1 IV' ID) as HR. cbn [q hd_ptr hd_req] in HR.
    unfold memset0. rewrite EB, ES.
    replace ((c_base c1 <=? r) && (r + num * size <=? c_base c1 + c_size c1)) with true by (geo_facts G1; lia).
    cbn [bind]. eexists _, _, r. split; [reflexivity|]. split; [reflexivity|].
    destruct (Z.eqb_spec r 0); [contradiction|]. cbn [set_mem h_free].
    apply (twin2_set k h1' h2' (q :: l) q); [exact TW'|exact ID| |];
      intros x Y; cbn [q hd_ptr hd_req] in Y;
      replace ((r <=? x) && (x <? r + num * size)) with false by lia; reflexivity.
  - destruct P as [->|(b & BI & <-)].
    + exists h1, h2, 0. split; [reflexivity|]. split; [reflexivity|]. rewrite filter_id; [exact TW|].
      intros b BI. pose proof (held_in c1 h1 l b G1 IV1 BI). geo_facts G1. lia.
    + destruct TW as [(bl & R1 & R2 & C) T1 T2 T3 T4 T5].
      destruct (held_lookup c1 h1 bl l b G1 R1 C BI) as (l1 & l2 & E). subst bl.
      pose proof (r_tiles _ _ _ (r_mem _ _ _ R1)) as T.
      destruct (deallocate_spec c1 h1 l1 (hd_ptr b - 16) (hd_fp b) l2 G1 R1) as (h1' & D1 & R1' & F1 & M1 & N1 & O1 & P1 & Q1 & _).
      destruct (deallocate_spec c2 h2 l1 (hd_ptr b - 16) (hd_fp b) l2 G2 R2) as (h2' & D2 & R2' & F2 & M2 & N2 & O2 & P2 & Q2 & _).
      replace (hd_ptr b - 16 + 16) with (hd_ptr b) in D1, D2 by lia.
      rewrite D1, D2. cbn [bind]. exists h1', h2', 0. split; [reflexivity|]. split; [reflexivity|].
      pose proof (corr_free _ _ _ _ _ _ _ T C) as CF.
      replace (hd_ptr b - 16 + 16) with (hd_ptr b) in CF by lia.
      constructor; [|congruence|congruence|congruence|congruence|lia].
      eexists. split; [exact R1'|]. split; [exact R2'|exact CF].
  - pose proof (twin2_free _ _ _ _ TW) as FE.
    eexists _, _, _. split; [reflexivity|]. split; [reflexivity|].
    destruct TW as [(bl & R1 & R2 & C) T1 T2 T3 T4 T5].
    constructor; cbn [reset_minimum_ever_free_heap_size h_min h_allocs h_frees h_cb h_fired]; try assumption.
    exists bl. destruct R1, R2. split; [constructor; assumption|]. split; [constructor; assumption|exact C].
  - eexists _, _, _. split; [reflexivity|]. split; [reflexivity|].
    destruct TW as [(bl & R1 & R2 & C) T1 T2 T3 T4 T5].
    constructor; cbn [on_fail h_min h_allocs h_frees h_cb h_fired]; try assumption; try reflexivity.
    exists bl. destruct R1, R2. split; [constructor; assumption|]. split; [constructor; assumption|exact C].
  - destruct P as (V & b & BI & X). unfold client_write. rewrite EB, ES.
    pose proof (held_in c1 h1 l b G1 IV1 BI) as HR.
    replace ((c_base c1 <=? a) && (a <? c_base c1 + c_size c1)) with true by (geo_facts G1; lia).
    cbn [bind]. eexists _, _, _. split; [reflexivity|]. split; [reflexivity|].
    apply (twin2_set k h1 h2 l b); [exact TW|exact BI| |];
      intros x Y; unfold upd; destruct (Z.eqb_spec x a); [lia|reflexivity|lia|reflexivity].
Qed.

Lemma twin2_session k h1 l evs h1' l' :
  session c1 h1 l evs h1' l' -> forall h2, twin2 k h1 h2 l ->
  exists h2', session c2 h2 l evs h2' l' /\ twin2 k h1' h2' l'.
Proof.
  induction 1 as [h l|h l o h1 r evs h1' l' P A S IH]; intros h2 TW.
  - exists h2. split; [constructor|exact TW].
  - destruct (twin2_apply k h h2 l o TW P) as (k1 & k2 & r' & A1 & A2 & TW').
    rewrite A in A1. injection A1 as <- <-.
    destruct (IH k2 TW') as (h2' & S' & TW2). exists h2'. split; [|exact TW2].
    unfold free_heap_size. rewrite (twin2_free _ _ _ _ TW'). econstructor; [exact P|exact A2|].
    unfold free_heap_size in *. rewrite <- (twin2_free _ _ _ _ TW), <- (twin2_free _ _ _ _ TW'). exact S'.
Qed.

(** The block handed out through one list head is handed out again through the other. *)
Lemma again h1 h2 bl n k h1' p :
  disjoint (c_xs c1) 16 (c_xs c2) 16 ->
  repr c1 h1 bl -> h_end h2 = area_end c1 -> h_free h2 = h_free h1 ->
  rd (h_mem h1) (c_xs c2) = rd (h_mem h1) (c_xs c1) ->
  (forall a s, In (Blk a s false) bl -> p - 16 <= a) ->
  allocate c1 h1 n = Ok (h1', p) -> p <> 0 -> is_size n ->
  is_size k -> 0 < k -> needed k <= h_free h1 ->
  exists h2', allocate c2 (set_mem h2 (h_mem h1')) k = Ok (h2', p).
Proof.
  intros DJ R HE HF X LG A NZ N K K0 KF.
  pose proof (allocate_spec c1 h1 bl n G1 R N) as AS.
  destruct (a_alloc bl n) as [[bl' a]|] eqn:AA; [|rewrite A in AS; injection AS as _ ->; contradiction].
  destruct AS as (h & l1 & s & l2 & A' & R' & E1 & E2 & WS & SM & F & _ & _ & _ & _ & _ & FR).
  rewrite A in A'. injection A' as <- ->.
  pose proof (r_tiles _ _ _ (r_mem _ _ _ R)) as T. rewrite E1 in T.
  pose proof (tiles_mid _ _ _ _ _ T) as (T1 & S16 & SMOD & T2). cbn [b_addr b_len] in T1, S16, SMOD, T2.
  pose proof (tiles_le _ _ _ T1) as L1. pose proof (tiles_le _ _ _ T2) as L2.
  pose proof (tiles_mod _ _ _ T1 (g_startmod c1 G1)) as AMOD.
  assert (NF : frees l1 = []).
  { destruct (frees l1) as [|[x t] f] eqn:EF; [reflexivity|exfalso].
    assert (I : In (x, t) (frees l1)) by (rewrite EF; left; reflexivity).
    apply in_frees in I.
    assert (IB : In (Blk x t false) bl) by (rewrite E1; apply in_or_app; left; exact I).
    pose proof (LG x t IB) as L.
    pose proof (tiles_in _ _ _ _ T1 (g_startmod c1 G1) I). cbn in *. lia. }
  assert (FS : h_free h1 <= area_end c1 - a).
  { rewrite (r_free _ _ _ R), E1, free_sum_app.
    assert (Z1 : free_sum l1 = 0).
    { clear - NF. induction l1 as [|b l1 IH]; [reflexivity|]. cbn [frees free_sum] in *.
      destruct (b_used b); [apply IH, NF|discriminate]. }
    cbn [free_sum b_used b_len]. pose proof (free_sum_bound _ _ _ T2). lia. }
  assert (XA : rd (h_mem h1) (c_xs c1) = prot a).
  { pose proof (chain_next _ _ _ _ (r_chain _ _ _ (r_mem _ _ _ R))) as CN.
    rewrite E1, frees_app, NF in CN. exact CN. }
  rewrite NF in FR. cbn [last_addr] in FR.
  set (M := h_mem h1') in *.
  assert (MX : rd M (c_xs c2) = prot a).
  { rewrite (rd_ext M (h_mem h1)); [congruence|]. intros y Y. unfold disjoint in DJ.
    pose proof (g_xs _ G2). rewrite EB, ES in *. geo_facts G1. apply FR; lia. }
  assert (MS : 2 ^ 63 <= rd M (a + 8)).
  { assert (IU : exists t, 16 <= t /\ In (Blk a t true) bl').
    { rewrite E2. unfold taken. destruct (32 <? s - needed n).
      - exists (needed n). split; [|apply in_or_app; right; left; reflexivity].
        unfold a_alloc in AA. destruct (0 <? n) eqn:N0; [|discriminate].
        pose proof (needed_bounds n ltac:(lia)). lia.
      - exists s. split; [exact S16|apply in_or_app; right; left; reflexivity]. }
    destruct IU as (t & T16 & IU).
    destruct (r_used _ _ _ (r_mem _ _ _ R') _ IU eq_refl) as (_ & Y). cbn [b_addr b_len] in Y. fold M in Y. lia. }
  assert (AJ : adjust k = needed k).
  { rewrite adjust_spec by exact K. replace (0 <? k) with true by lia.
    geo_facts G1. replace (needed k <? W64) with true by lia. reflexivity. }
  pose proof (needed_bounds k K0) as NB.
  assert (BND : c_base c2 <= area_start c1 /\ area_end c1 + 16 <= c_base c2 + c_size c2 /\ area_end c1 < 2 ^ 64).
  { rewrite EB, ES. geo_facts G1. rewrite W64_val in *. lia. }
  assert (AO : hdr_ok c2 a) by (split; [exact AMOD|left; lia]).
  assert (AW : hdr_ok c2 (u64 (a + needed k))).
  { rewrite u64_id by (geo_facts G1; rewrite W64_val; lia). split; [lia|left; lia]. }
  pose proof (hdr_ok_xs c2 G2) as XO.
  destruct (rest_defined c2 (set_mem h2 M) (c_xs c2) a (needed k) (a + 16) G2 XO AO AW) as (h2' & TR).
  exists h2'. unfold allocate, allocate_core. rewrite AJ.
  assert (K63 : needed k < 2 ^ 63) by (geo_facts G1; lia).
  unfold heap_block_size_is_valid. rewrite bit_val, small_land_top by lia. cbn [Z.eqb].
  replace (0 <? needed k) with true by lia. cbn [set_mem h_free h_mem].
  replace (needed k <=? h_free h2) with true by lia. cbn [andb].
  rewrite (ld_next_ok c2 M (c_xs c2) G2 XO). cbn [bind]. rewrite MX, prot_prot.
  unfold walk_fuel. cbn [find_block].
  rewrite (ld_size_ok c2 M a G2 AO). cbn [bind].
  replace (rd M (a + 8) <? needed k) with false by lia. cbn [bind].
  cbn [h_end set_mem]. rewrite HE. replace (a =? area_end c1) with false by lia. cbn [negb].
  rewrite take_split. unfold take_ret. cbn [set_mem h_mem].
  rewrite (ld_next_ok c2 M (c_xs c2) G2 XO). cbn [bind]. rewrite MX, prot_prot, hss_val.
  rewrite u64_id by (geo_facts G1; rewrite W64_val; lia).
  change (mkHeap M (h_end h2) (h_free h2) (h_min h2) (h_allocs h2) (h_frees h2) (h_cb h2) (h_fired h2)) with (set_mem h2 M).
  rewrite TR. cbn [bind]. replace (a + 16 =? 0) with false by lia. reflexivity.
Qed.
End Two.

(** A block given back through one list head: giving it back through the other one does
    nothing. *)
Lemma twice_ignored c1 c2 h1 h2 bl l b h1' :
  geo c1 -> geo c2 -> c_base c2 = c_base c1 -> c_size c2 = c_size c1 ->
  repr c1 h1 bl -> corr bl l -> In b l -> deallocate c1 h1 (hd_ptr b) = Ok h1' ->
  deallocate c2 (set_mem h2 (h_mem h1')) (hd_ptr b) = Ok (set_mem h2 (h_mem h1')).
Proof.
  intros G1 G2 EB ES R C I D.
  destruct (held_lookup c1 h1 bl l b G1 R C I) as (l1 & l2 & E). subst bl.
  destruct (deallocate_spec c1 h1 l1 (hd_ptr b - 16) (hd_fp b) l2 G1 R) as (h & D' & _ & _ & _ & _ & _ & _ & _ & SZ & _).
  replace (hd_ptr b - 16 + 16) with (hd_ptr b) in D' by lia. rewrite D in D'. injection D' as <-.
  pose proof (r_tiles _ _ _ (r_mem _ _ _ R)) as T.
  pose proof (tiles_in _ _ _ (Blk (hd_ptr b - 16) (hd_fp b) true) T (g_startmod c1 G1) ltac:(apply in_elt)) as IR. cbn in IR.
  unfold deallocate. replace (hd_ptr b =? 0) with false by (geo_facts G1; lia).
  rewrite hss_val, u64_id by (geo_facts G1; rewrite W64_val in *; lia).
  assert (AO : hdr_ok c2 (hd_ptr b - 16)) by (geo_facts G1; split; [lia|left; rewrite EB, ES; lia]).
  unfold heap_block_is_allocated. rewrite (ld_size_ok c2 _ _ G2 AO). cbn [bind set_mem h_mem].
  rewrite bit_val, small_land_top by exact SZ. reflexivity.
Qed.

Section Copied.
Context (c : cfg) (d : Z) (PL : placed c) (RM : roomy c) (BE : beside c d).
Let G : geo c := placed_geo c PL RM.
Let cc := copy_cfg c d.

Lemma copy_geo : geo cc.
Proof.
  destruct BE as [BA BL BT BD]. destruct PL as [P1 P2 P3 P4 P5]. unfold disjoint in BD.
  assert (AS : area_start cc = area_start c) by reflexivity.
  assert (AE : area_end cc = area_end c) by reflexivity.
  geo_facts G. constructor; try rewrite AS; try rewrite AE; cbn [cc copy_cfg c_base c_size c_xs]; try assumption; try lia.
  rewrite Z.add_mod, P4, BA by lia. reflexivity.
Qed.

Lemma heads_apart : disjoint (c_xs c) 16 (c_xs cc) 16.
Proof.
  destruct BE as [BA BL BT BD]. destruct PL as [P1 P2 P3 P4 P5]. unfold disjoint in *. cbn [cc copy_cfg c_xs]. lia.
Qed.

Lemma copied_buf m x : buf c x -> copy_bytes c d m x = m x.
Proof.
  intros X. unfold buf in X. destruct BE as [BA BL BT BD]. destruct PL as [P1 P2 P3 P4 P5]. unfold disjoint in BD.
  unfold copy_bytes. 
  replace ((c_base c + d <=? x) && (x <? c_base c + d + c_size c) || (c_xs c + d <=? x) && (x <? c_xs c + d + 16)) with false by lia.
  reflexivity.
Qed.

Lemma copied_head m x : hd c x -> copy_bytes c d m x = m x.
Proof.
  intros X. unfold hd in X. destruct BE as [BA BL BT BD]. destruct PL as [P1 P2 P3 P4 P5]. unfold disjoint in BD.
  unfold copy_bytes. 
  replace ((c_base c + d <=? x) && (x <? c_base c + d + c_size c) || (c_xs c + d <=? x) && (x <? c_xs c + d + 16)) with false by lia.
  reflexivity.
Qed.

Lemma copied_new m x : hd cc x -> copy_bytes c d m x = m (x - d).
Proof.
  intros X. unfold hd in X. cbn [cc copy_cfg c_xs] in X. unfold copy_bytes. 
  replace ((c_base c + d <=? x) && (x <? c_base c + d + c_size c) || (c_xs c + d <=? x) && (x <? c_xs c + d + 16)) with true by lia.
  reflexivity.
Qed.

Lemma rd_same m m' a a' : (forall i, 0 <= i < 8 -> m' (a' + i) = m (a + i)) -> rd m' a' = rd m a.
Proof.
  intros E. unfold rd. pose proof (E 0 ltac:(lia)) as E0. rewrite !Z.add_0_r in E0.
  rewrite E0, (E 1), (E 2), (E 3), (E 4), (E 5), (E 6), (E 7) by lia. reflexivity.
Qed.

Lemma copied_word m : rd (copy_bytes c d m) (c_xs cc) = rd m (c_xs c) /\
                      rd (copy_bytes c d m) (c_xs cc + 8) = rd m (c_xs c + 8).
Proof.
  split; apply rd_same; intros i I; rewrite copied_new by (unfold hd; lia);
    f_equal; cbn [cc copy_cfg c_xs]; lia.
Qed.
Lemma kept_word m : rd (copy_bytes c d m) (c_xs c) = rd m (c_xs c) /\
                    rd (copy_bytes c d m) (c_xs c + 8) = rd m (c_xs c + 8).
Proof.
  split; apply rd_same; intros i I; apply copied_head; unfold hd; lia.
Qed.

Lemma copy_orig h bl : repr c h bl -> repr c (p_orig (copy_heap c d h)) bl.
Proof.
  intros [M E F]. constructor; cbn [copy_heap p_orig set_mem h_mem h_end h_free]; [|exact E|exact F].
  pose proof (kept_word (h_mem h)) as (W1 & W2).
  apply (mrepr_move c c (h_mem h)); auto. intros x X. apply copied_buf, X.
Qed.
Lemma copy_copy h bl : repr c h bl -> repr cc (p_copy (copy_heap c d h)) bl.
Proof.
  intros [M E F]. constructor; cbn [copy_heap p_copy set_mem h_mem h_end h_free]; [|exact E|exact F].
  pose proof (copied_word (h_mem h)) as (W1 & W2).
  apply (mrepr_move c cc (h_mem h)); auto. intros x X. apply copied_buf, X.
Qed.

Lemma copy_twin h l : inv c h l -> twin2 c cc (h_fired h) h (p_copy (copy_heap c d h)) l.
Proof.
  intros (bl & R & C). constructor; try reflexivity.
  exists bl. split; [exact R|]. split; [apply copy_copy, R|exact C].
Qed.

Lemma twin_flip k h1 h2 l : twin2 c cc k h1 h2 l -> twin2 cc c (- k) h2 h1 l.
Proof. intros [(bl & A & B & C) E1 E2 E3 E4 E5]. constructor; try congruence; [exists bl; auto|lia]. Qed.

Lemma twin_shows k h1 h2 l : twin2 c cc k h1 h2 l -> shows_same h1 h2 /\ h_fired h1 - k = h_fired h2.
Proof.
  intros T. pose proof (twin2_free _ _ _ _ _ _ T) as F. destruct T as [_ E1 E2 E3 E4 E5].
  split; [|lia]. unfold shows_same, free_heap_size, minimum_ever_free_heap_size. auto.
Qed.

Lemma copy_sessions h l evs l1 : reachable c h l ->
  (forall h1, session c h l evs h1 l1 ->
     exists h2, session cc (p_copy (copy_heap c d h)) l evs h2 l1 /\ shows_same h1 h2 /\ h_fired h1 - h_fired h = h_fired h2) /\
  (forall h2, session cc (p_copy (copy_heap c d h)) l evs h2 l1 ->
     exists h1, session c h l evs h1 l1 /\ shows_same h1 h2 /\ h_fired h1 - h_fired h = h_fired h2).
Proof.
  intros R. apply (inv_reachable _ _ _ G) in R. pose proof (copy_twin h l R) as TW. split.
  - intros h1 S. destruct (twin2_session c cc G copy_geo eq_refl eq_refl _ _ _ _ _ _ S _ TW) as (h2 & S2 & T2).
    exists h2. split; [exact S2|]. apply twin_shows in T2. exact T2.
  - intros h2 S. destruct (twin2_session cc c copy_geo G eq_refl eq_refl _ _ _ _ _ _ S _ (twin_flip _ _ _ _ TW)) as (h1 & S1 & T1).
    exists h1. split; [exact S1|].
    assert (T2 : twin2 c cc (h_fired h) h1 h2 l1).
    { destruct T1 as [(bl & A & B & C) E1 E2 E3 E4 E5]. constructor; try congruence; [exists bl; auto|lia]. }
    apply twin_shows in T2. exact T2.
Qed.

Lemma copy_places h l evs h2 l1 : reachable c h l ->
  session cc (p_copy (copy_heap c d h)) l evs h2 l1 ->
  (forall x a, In x l1 -> hd_ptr x <= a < hd_ptr x + hd_req x -> in_original c a /\ ~ in_copy c d a) /\
  (forall a, in_copy c d a -> h_mem h2 a = h_mem h (a - d)).
Proof.
  intros R S. apply (inv_reachable _ _ _ G) in R. destruct R as (bl & R & C).
  assert (IV : inv cc (p_copy (copy_heap c d h)) l) by (exists bl; split; [apply copy_copy, R|exact C]).
  pose proof copy_geo as GC. destruct BE as [BA BL BT BD]. destruct PL as [P1 P2 P3 P4 P5]. unfold disjoint in BD.
  split.
  - intros x a I X. pose proof (inv_session cc _ _ _ _ _ GC IV S) as IV1.
    pose proof (held_in cc h2 l1 x GC IV1 I) as HR. unfold in_copy, in_original.
    change (area_start cc) with (area_start c) in HR. change (area_end cc) with (area_end c) in HR.
    geo_facts G. lia.
  - intros a A. unfold in_copy, in_original in A.
    rewrite (session_frame cc _ _ _ _ _ S GC IV); cbn [copy_heap p_copy h_mem].
    + unfold copy_bytes.
      replace ((c_base c + d <=? a) && (a <? c_base c + d + c_size c) || (c_xs c + d <=? a) && (a <? c_xs c + d + 16)) with true by lia.
      reflexivity.
    + unfold buf. cbn [cc copy_cfg c_base c_size]. lia.
    + unfold hd. cbn [cc copy_cfg c_xs]. lia.
Qed.

Lemma lowest_blocks h bl l p : repr c h bl -> corr bl l -> lowest_gap c l p ->
  forall a s, In (Blk a s false) bl -> p - 16 <= a.
Proof.
  intros R C LG a s I. apply (LG a s).
  apply (free_gap c PL RM bl); [apply (r_tiles _ _ _ (r_mem _ _ _ R))|apply (r_noadj _ _ _ (r_mem _ _ _ R))|exact C|exact I].
Qed.

Lemma same_block_twice h l w n k t p : reachable c h l -> is_size n -> is_size k -> 0 < k ->
  needed k <= free_heap_size h -> lowest_gap c l p ->
  pair_call c d w (copy_heap c d h) (Alloc n) = Ok (t, p) -> p <> 0 ->
  exists t', pair_call c d (other w) t (Alloc k) = Ok (t', p).
Proof.
  intros R N K K0 KF LG A NZ. apply (inv_reachable _ _ _ G) in R. destruct R as (bl & R & C).
  pose proof (lowest_blocks h bl l p R C LG) as LB. pose proof heads_apart as HA.
  pose proof (copied_word (h_mem h)) as (W1 & _). pose proof (kept_word (h_mem h)) as (W2 & _).
  destruct w; cbn [pair_call other apply] in *.
  - destruct (allocate c (p_orig (copy_heap c d h)) n) as [[h1 q]| |] eqn:E; cbn [bind] in A; try discriminate.
    injection A as <- ->. cbn [p_copy].
    destruct (again c cc G copy_geo eq_refl eq_refl (p_orig (copy_heap c d h)) (p_copy (copy_heap c d h)) bl n k h1 p)
      as (h2 & E2); auto using copy_orig.
    + exact (r_end _ _ _ R).
    + cbn [copy_heap p_orig set_mem h_mem]. congruence.
    + fold cc. cbn [copy_heap p_copy p_orig] in E2 |- *. rewrite E2. cbn [bind]. eexists. reflexivity.
  - destruct (allocate (copy_cfg c d) (p_copy (copy_heap c d h)) n) as [[h1 q]| |] eqn:E; cbn [bind] in A; try discriminate.
    injection A as <- ->. cbn [p_orig].
    destruct (again cc c copy_geo G eq_refl eq_refl (p_copy (copy_heap c d h)) (p_orig (copy_heap c d h)) bl n k h1 p)
      as (h2 & E2); auto using copy_copy.
    + unfold disjoint in *. tauto.
    + exact (r_end _ _ _ R).
    + cbn [copy_heap p_copy set_mem h_mem]. congruence.
    + cbn [copy_heap p_copy p_orig] in E2 |- *. rewrite E2. cbn [bind]. eexists. reflexivity.
Qed.

Lemma fresh_collide h0 w n k t p : construct c = Ok h0 -> is_size n -> is_size k -> 0 < k ->
  needed k <= free_heap_size h0 ->
  pair_call c d w (copy_heap c d h0) (Alloc n) = Ok (t, p) -> p <> 0 ->
  p = area_start c + 16 /\ exists t', pair_call c d (other w) t (Alloc k) = Ok (t', p).
Proof.
  intros E N K K0 KF A NZ.
  assert (R : reachable c h0 []) by (exists h0, []; split; [exact E|constructor]).
  assert (X : exists h', allocate c h0 n = Ok (h', p)).
  { pose proof (inv_reachable _ _ _ G R) as IV. destruct IV as (bl & R0 & C).
    pose proof (allocate_spec c h0 bl n G R0 N) as S0.
    destruct w; cbn [pair_call apply] in A.
    - destruct (allocate c (p_orig (copy_heap c d h0)) n) as [[h1 q]| |] eqn:EA; cbn [bind] in A; try discriminate.
      injection A as _ ->. pose proof (allocate_spec c _ bl n G (copy_orig h0 bl R0) N) as S1.
      destruct (a_alloc bl n) as [[bl' a]|].
      + destruct S0 as (h' & _ & _ & _ & A0 & _). destruct S1 as (h'' & _ & _ & _ & A1 & _).
        rewrite EA in A1. injection A1 as _ ->. exists h'. exact A0.
      + rewrite EA in S1. injection S1 as _ ->. contradiction.
    - destruct (allocate (copy_cfg c d) (p_copy (copy_heap c d h0)) n) as [[h1 q]| |] eqn:EA; cbn [bind] in A; try discriminate.
      injection A as _ ->. pose proof (allocate_spec cc _ bl n copy_geo (copy_copy h0 bl R0) N) as S1.
      destruct (a_alloc bl n) as [[bl' a]|].
      + destruct S0 as (h' & _ & _ & _ & A0 & _). destruct S1 as (h'' & _ & _ & _ & A1 & _).
        unfold cc in A1. rewrite EA in A1. injection A1 as _ ->. exists h'. exact A0.
      + unfold cc in S1. rewrite EA in S1. injection S1 as _ ->. contradiction. }
  destruct X as (h' & A0).
  destruct (first_fit c PL RM h0 [] n h' p R N A0) as (_ & FF). destruct (FF NZ) as ((W1 & W2 & _) & LO).
  assert (PE : p = area_start c + 16).
  { assert (p - 16 <= area_start c); [|lia]. apply LO. split; [lia|]. split; [lia|]. intros b []. }
  split; [exact PE|].
  apply (same_block_twice h0 [] w n k t p); auto.
  intros a m (_ & _ & [->|(b & [] & _)] & _). lia.
Qed.

Lemma set_same h : set_mem h (h_mem h) = h.
Proof. destruct h. reflexivity. Qed.

Lemma release_twice h l w x : reachable c h l -> In x l ->
  exists t, pair_call c d w (copy_heap c d h) (Free (hd_ptr x)) = Ok (t, 0) /\
    free_heap_size (of_pair w t) = free_heap_size h + hd_fp x /\
    pair_call c d (other w) t (Free (hd_ptr x)) = Ok (t, 0) /\
    free_heap_size (of_pair (other w) t) = free_heap_size h.
Proof.
  intros R I. apply (inv_reachable _ _ _ G) in R. destruct R as (bl & R & C). pose proof copy_geo as GC.
  destruct w; cbn [pair_call other apply of_pair].
  - pose proof (copy_orig h bl R) as R1.
    destruct (inv_free c (p_orig (copy_heap c d h)) l x G (ex_intro _ bl (conj R1 C)) I) as (h1 & D & _ & F & _).
    rewrite D. cbn [bind]. eexists. split; [reflexivity|]. cbn [p_orig p_copy].
    split; [exact F|]. fold cc.
    rewrite (twice_ignored c cc _ _ bl l x h1 G GC eq_refl eq_refl R1 C I D). cbn [bind set_mem h_mem].
    rewrite set_same. split; reflexivity.
  - pose proof (copy_copy h bl R) as R1. fold cc.
    destruct (inv_free cc (p_copy (copy_heap c d h)) l x GC (ex_intro _ bl (conj R1 C)) I) as (h1 & D & _ & F & _).
    rewrite D. cbn [bind]. eexists. split; [reflexivity|]. cbn [p_orig p_copy].
    split; [exact F|].
    rewrite (twice_ignored cc c _ _ bl l x h1 GC G eq_refl eq_refl R1 C I D). cbn [bind set_mem h_mem].
    rewrite set_same. split; reflexivity.
Qed.
End Copied.
