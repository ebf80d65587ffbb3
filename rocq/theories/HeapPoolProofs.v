(** Requests of one size only: the held blocks stay on a grid. *)
From Verif Require Export HeapPoolSpec HeapFragProofs.

Lemma ceiling_is c l a : (ceiling c l a = area_end c \/ exists b, In b l /\ a <= region_start b /\ region_start b = ceiling c l a) /\
  ceiling c l a <= area_end c /\ (forall b, In b l -> a <= region_start b -> ceiling c l a <= region_start b).
Proof.
  unfold ceiling. induction l as [|b l (IH1 & IH2 & IH3)]; cbn [fold_right].
  - split; [left; reflexivity|]. split; [lia|]. intros b [].
  - destruct (Z.leb_spec a (region_start b)) as [L|L].
    + set (e := fold_right _ _ l) in *. split; [|split; [lia|]].
      * destruct (Z.min_spec (region_start b) e) as [[M ->]|[M ->]].
        -- right. exists b. split; [left; reflexivity|]. split; [lia|reflexivity].
        -- destruct IH1 as [E|(x & I & A & E)]; [left; exact E|right; exists x; split; [right; exact I|auto]].
      * intros x [<-|I] A; [lia|]. specialize (IH3 x I A). lia.
    + split; [|split; [lia|]].
      * destruct IH1 as [E|(x & I & A & E)]; [left; exact E|right; exists x; split; [right; exact I|auto]].
      * intros x [<-|I] A; [lia|]. apply IH3; assumption.
Qed.
Lemma fop_filter {A} (R : A -> A -> Prop) f l : ForallOrdPairs R l -> ForallOrdPairs R (filter f l).
Proof.
  induction 1 as [|x l F P IH]; cbn [filter]; [constructor|]. destruct (f x); [|exact IH]. constructor; [|exact IH].
  apply Forall_forall. intros y I. apply filter_In in I. rewrite Forall_forall in F. apply F, I.
Qed.
Lemma nodup_app {A} (l k : list A) : NoDup l -> NoDup k -> (forall x, In x l -> ~ In x k) -> NoDup (l ++ k).
Proof.
  induction 1 as [|x l NI ND IH]; intros K D; cbn [app]; [exact K|]. constructor.
  - intros I. apply in_app_or in I. destruct I as [I|I]; [contradiction|]. apply (D x (or_introl eq_refl) I).
  - apply IH; [exact K|]. intros y I. apply D. right. exact I.
Qed.
Lemma some_missing K (l : list nat) : (length l < K)%nat -> exists j, (j < K)%nat /\ ~ In j l.
Proof.
  intros L. destruct (Exists_dec (fun j => ~ In j l) (seq 0 K)) as [E|N].
  - intros j. destruct (in_dec Nat.eq_dec j l); [right; tauto|left; assumption].
  - apply Exists_exists in E. destruct E as (j & I & NI). apply in_seq in I. exists j. split; [lia|exact NI].
  - exfalso. assert (incl (seq 0 K) l).
    { intros j I. destruct (in_dec Nat.eq_dec j l) as [|NI]; [assumption|]. exfalso. apply N. apply Exists_exists. eauto. }
    pose proof (NoDup_incl_length (seq_NoDup K 0) H) as X. rewrite seq_length in X. lia.
Qed.

Section Uni.
  Variable c : cfg.
  Hypothesis PL : placed c.
  Hypothesis RM : roomy c.
  Notation G := (placed_geo c PL RM).
  Variable n : Z.
  Hypothesis NP : 0 < n.
  Notation s0 := (area_start c).
  Notation e0 := (area_end c).
  Notation w := (needed n).
  Notation K := (places c n).
  Lemma w24 : 24 <= w.
  Proof. unfold needed. lia. Qed.
  Lemma places_is : 0 <= K /\ w * K <= e0 - s0 < w * K + w.
  Proof.
    pose proof w24. unfold roomy in RM. unfold places. split; [apply Z.div_pos; lia|].
    pose proof (Z.mul_div_le (e0 - s0) w). pose proof (Z.mul_succ_div_gt (e0 - s0) w). lia.
  Qed.
  Lemma fits_place j : w * (j + 1) <= e0 - s0 <-> j < K.
  Proof.
    pose proof w24. pose proof places_is as (K0 & K1 & K2). split; intros H1.
    - assert (w * (j + 1) < w * (K + 1)) by lia. apply Z.mul_lt_mono_pos_l in H0; lia.
    - assert (w * (j + 1) <= w * K) by (apply Z.mul_le_mono_nonneg_l; lia). lia.
  Qed.

  Definition kk (b : held) : Z := (region_start b - s0) / w.
  Definition ff (b : held) : Z := hd_fp b / w.
  Record cell (b : held) : Prop := {
    ce_at : region_start b = s0 + w * kk b;
    ce_k : 0 <= kk b;
    ce_f : ff b = 1 \/ ff b = 2 /\ w <= 32;
    ce_fp : hd_fp b = w * ff b \/ region_start b + hd_fp b = e0;
    ce_end : region_start b + hd_fp b <= e0 }.
  Definition apart (b b' : held) : Prop := disjoint (region_start b) (hd_fp b) (region_start b') (hd_fp b').
  Definition grid (l : list held) : Prop := Forall cell l /\ ForallOrdPairs apart l.
  Definition slots (b : held) : list nat := seq (Z.to_nat (kk b)) (Z.to_nat (ff b)).
  Definition cov (l : list held) : list nat := flat_map slots l.
  Lemma fp_range b : cell b -> w * ff b <= hd_fp b < w * ff b + w.
  Proof. intros C. pose proof w24. unfold ff. pose proof (Z.mul_div_le (hd_fp b) w). pose proof (Z.mul_succ_div_gt (hd_fp b) w). lia. Qed.
  Lemma in_slots b j : cell b -> (In j (slots b) <-> kk b <= Z.of_nat j < kk b + ff b).
  Proof. intros C. pose proof (ce_k b C). pose proof (ce_f b C). unfold slots. rewrite in_seq. lia. Qed.
  Lemma in_cov l j : In j (cov l) <-> exists b, In b l /\ In j (slots b).
  Proof. unfold cov. apply in_flat_map. Qed.
  Lemma slot_free l j : Forall cell l -> w * (Z.of_nat j + 1) <= e0 - s0 -> ~ In j (cov l) -> free_window c l (s0 + w * Z.of_nat j) n.
  Proof.
    intros F L NI. pose proof w24. split; [|split; [lia|]].
    - assert (0 <= w * Z.of_nat j) by (apply Z.mul_nonneg_nonneg; lia). lia.
    - intros b B. rewrite Forall_forall in F. pose proof (F b B) as C. pose proof (fp_range b C) as FR. destruct C as [C1 C2 C3 C4 C5].
      unfold disjoint. destruct (Z.lt_ge_cases (Z.of_nat j) (kk b)) as [J|J].
      + left. assert (w * (Z.of_nat j + 1) <= w * kk b) by (apply Z.mul_le_mono_nonneg_l; lia). lia.
      + right. assert (J2 : kk b + ff b <= Z.of_nat j).
        { destruct (Z.le_gt_cases (kk b + ff b) (Z.of_nat j)) as [|J2]; [assumption|]. exfalso. apply NI, in_cov. exists b. split; [exact B|].
          apply in_slots; [apply F, B|lia]. }
        assert (w * (kk b + ff b) <= w * Z.of_nat j) by (apply Z.mul_le_mono_nonneg_l; lia). lia.
  Qed.
  Lemma window_slot l a : Forall cell l -> free_window c l a n ->
    exists j, s0 + w * Z.of_nat j <= a < s0 + w * Z.of_nat j + w /\ w * (Z.of_nat j + 1) <= e0 - s0 /\ ~ In j (cov l).
  Proof.
    intros F (L & U & D). pose proof w24. exists (Z.to_nat ((a - s0) / w)).
    assert (J0 : 0 <= (a - s0) / w) by (apply Z.div_pos; lia). rewrite Z2Nat.id by lia.
    pose proof (Z.mul_div_le (a - s0) w). pose proof (Z.mul_succ_div_gt (a - s0) w). set (j := (a - s0) / w) in *.
    split; [lia|]. split; [lia|]. intros I. apply in_cov in I. destruct I as (b & B & I).
    rewrite Forall_forall in F. pose proof (F b B) as C. apply in_slots in I; [|exact C]. rewrite Z2Nat.id in I by lia.
    pose proof (fp_range b C) as FR. destruct C as [C1 C2 C3 C4 C5]. specialize (D b B). unfold disjoint in D.
    assert (w * kk b <= w * j) by (apply Z.mul_le_mono_nonneg_l; lia).
    assert (w * (j + 1) <= w * (kk b + ff b)) by (apply Z.mul_le_mono_nonneg_l; lia). lia.
  Qed.
  Lemma cov_nodup l : grid l -> NoDup (cov l).
  Proof.
    intros [F P]. induction P as [|b l A P IH]; cbn [cov flat_map]; [constructor|]. inversion F as [|x k C F']; subst.
    apply nodup_app; [apply seq_NoDup|apply IH, F'|]. intros j I J. apply in_flat_map in J. destruct J as (b' & B' & J).
    rewrite Forall_forall in A, F'. specialize (A b' B'). pose proof (F' b' B') as C'.
    apply in_slots in I; [|exact C]. apply in_slots in J; [|exact C'].
    pose proof (fp_range b C). pose proof (fp_range b' C'). pose proof (ce_at b C). pose proof (ce_at b' C'). pose proof w24. unfold apart, disjoint in A.
    assert (w * kk b <= w * Z.of_nat j) by (apply Z.mul_le_mono_nonneg_l; lia).
    assert (w * (Z.of_nat j + 1) <= w * (kk b + ff b)) by (apply Z.mul_le_mono_nonneg_l; lia).
    assert (w * kk b' <= w * Z.of_nat j) by (apply Z.mul_le_mono_nonneg_l; lia).
    assert (w * (Z.of_nat j + 1) <= w * (kk b' + ff b')) by (apply Z.mul_le_mono_nonneg_l; lia). lia.
  Qed.
  Lemma cov_incl l : Forall cell l -> incl (cov l) (seq 0 (Z.to_nat K)).
  Proof.
    intros F j I. apply in_cov in I. destruct I as (b & B & I). rewrite Forall_forall in F. pose proof (F b B) as C. apply in_slots in I; [|exact C].
    pose proof (fp_range b C). pose proof (ce_at b C). pose proof (ce_end b C). pose proof w24.
    assert (w * (Z.of_nat j + 1) <= w * (kk b + ff b)) by (apply Z.mul_le_mono_nonneg_l; lia).
    apply in_seq. pose proof places_is. assert (Z.of_nat j < K) by (apply fits_place; lia). lia.
  Qed.
  Lemma cov_length l : Forall cell l -> (length l <= length (cov l) <= 2 * length l)%nat.
  Proof.
    induction 1 as [|b l C F IH]; cbn [cov flat_map length]; [lia|]. rewrite app_length. unfold slots at 1 3. rewrite seq_length.
    pose proof (ce_f b C). unfold cov in IH. lia.
  Qed.
  Lemma cov_length_big l : 32 < w -> Forall cell l -> length (cov l) = length l.
  Proof.
    intros B. induction 1 as [|b l C F IH]; cbn [cov flat_map length]; [reflexivity|]. rewrite app_length. unfold slots at 1. rewrite seq_length.
    pose proof (ce_f b C). unfold cov in IH. lia.
  Qed.

  (** one request *)
  Lemma alloc_at h l m h' r : reachable c h l -> grid l -> is_size m -> needed m = w -> allocate c h m = Ok (h', r) -> r <> 0 ->
    (exists j, r - 16 = s0 + w * Z.of_nat j /\ w * (Z.of_nat j + 1) <= e0 - s0 /\ ~ In j (cov l) /\ forall i, (i < j)%nat -> In i (cov l)) /\
    grid (Held r m (free_heap_size h - free_heap_size h') :: l).
  Proof.
    intros R [F P] MS MW A NZ. pose proof w24 as W24.
    pose proof (footprint c PL RM h l m h' r R MS A NZ) as FP. cbv zeta in FP. rewrite MW in FP.
    destruct (first_fit c PL RM h l m h' r R MS A) as [_ F2]. destruct (F2 NZ) as [W M]. clear F2.
    assert (FWE : forall a, free_window c l a m <-> free_window c l a n) by (intros a; unfold free_window; rewrite MW; tauto).
    apply FWE in W. destruct (window_slot l _ F W) as (j & J1 & J2 & J3).
    pose proof (slot_free l j F J2 J3) as WJ. apply FWE in WJ. specialize (M _ WJ) as MJ. apply FWE in WJ.
    assert (EJ : r - 16 = s0 + w * Z.of_nat j) by lia. split.
    { exists j. repeat split; auto. intros i I. destruct (in_dec Nat.eq_dec i (cov l)) as [|NI]; [assumption|exfalso].
      assert (w * (Z.of_nat i + 1) <= w * Z.of_nat j) by (apply Z.mul_le_mono_nonneg_l; lia).
      assert (WI : free_window c l (s0 + w * Z.of_nat i) m) by (apply FWE, slot_free; [exact F|lia|exact NI]). specialize (M _ WI). lia. }
    set (fp := free_heap_size h - free_heap_size h') in *. set (b := Held r m fp).
    destruct (ceiling_is c l (r - 16)) as (CE & CT & CM). set (e := ceiling c l (r - 16)) in *.
    destruct W as (WL & WU & WD).
    assert (POS : forall x, In x l -> 0 < hd_fp x).
    { intros x X. rewrite Forall_forall in F. pose proof (fp_range x (F x X)). pose proof (ce_f x (F x X)). destruct H0 as [E|[E _]]; rewrite E in H; lia. }
    assert (AE : r - 16 + w <= e).
    { destruct CE as [->|(x & X & XA & <-)]; [exact WU|]. specialize (WD x X). pose proof (POS x X). unfold disjoint in WD. lia. }
    assert (FE : r - 16 + fp <= e /\ 0 < fp) by (rewrite FP; destruct (Z.leb_spec (e - (r - 16) - w) 32); lia).
    assert (CB : cell b).
    { assert (KB : kk b = Z.of_nat j) by (unfold kk, b, region_start; cbn [hd_ptr]; rewrite EJ; replace (s0 + w * Z.of_nat j - s0) with (Z.of_nat j * w) by ring; apply Z.div_mul; lia).
      assert (DF : forall q x, 0 <= x < w -> (w * q + x) / w = q) by (intros q x X; symmetry; apply (Z.div_unique _ _ _ x); lia).
      assert (FFB : (ff b = 1 \/ ff b = 2 /\ w <= 32) /\ (fp = w * ff b \/ r - 16 + fp = e0)).
      { unfold ff, b. cbn [hd_fp]. rewrite FP. destruct (Z.leb_spec (e - (r - 16) - w) 32) as [L|L].
        - destruct CE as [EE|(x & X & XA & XE)].
          + rewrite EE in *. split; [|right; lia].
            destruct (Z.lt_ge_cases (e0 - (r - 16)) (2 * w)) as [Q|Q].
            * left. replace (e0 - (r - 16)) with (w * 1 + (e0 - (r - 16) - w)) by ring. apply DF. lia.
            * right. split; [|lia]. replace (e0 - (r - 16)) with (w * 2 + (e0 - (r - 16) - 2 * w)) by ring. apply DF. lia.
          + rewrite Forall_forall in F. pose proof (ce_at x (F x X)) as XS. rewrite XE in XS.
            assert (Q : e - (r - 16) = w * (kk x - Z.of_nat j) + 0) by lia. rewrite Q. rewrite DF by lia.
            assert (Q1 : 0 < kk x - Z.of_nat j) by (apply Z.mul_lt_mono_pos_l with (p := w); lia).
            assert (Q2 : kk x - Z.of_nat j < 3).
            { apply Z.mul_lt_mono_pos_l with (p := w); lia. }
            split; [|left; lia]. destruct (Z.eq_dec (kk x - Z.of_nat j) 1) as [E1|E1]; [left; exact E1|].
            assert (E2 : kk x - Z.of_nat j = 2) by lia. right. split; [exact E2|]. rewrite E2 in Q. lia.
        - rewrite Z.div_same by lia. lia. }
      constructor; rewrite ?KB; unfold region_start, b; cbn [hd_ptr hd_fp]; try lia.
      - apply FFB. - apply FFB. }
    split; [constructor; [exact CB|exact F]|]. constructor; [|exact P].
    apply Forall_forall. intros x X. unfold apart, disjoint. unfold region_start at 1 4, b. cbn [hd_ptr hd_fp].
    specialize (WD x X). pose proof (POS x X). unfold disjoint in WD.
    destruct (Z.le_gt_cases (r - 16) (region_start x)) as [L|L]; [specialize (CM x X L); lia|lia].
  Qed.
  Lemma calloc_as h l num size h' r : reachable c h l -> is_size num -> is_size size -> callocate c h num size = Ok (h', r) -> r <> 0 ->
    is_size (num * size) /\ exists h1, allocate c h (num * size) = Ok (h1, r) /\ free_heap_size h1 = free_heap_size h'.
  Proof.
    intros R A B E NZ. assert (P0 : 0 <= num * size) by (unfold is_size in *; apply Z.mul_nonneg_nonneg; lia).
    unfold callocate in E. rewrite needed_size_mul in E by assumption.
    destruct (Z.ltb_spec (num * size) W64) as [L|L]; cbn [negb] in E; [|injection E as _ E; congruence].
    rewrite u64_id in E by lia. split; [unfold is_size; lia|].
    destruct (allocate c h (num * size)) as [[h1 r1]| |]; cbn [bind] in E; try discriminate.
    destruct (Z.eqb_spec r1 0) as [Z0|Z0]; cbn [negb] in E; [injection E as _ E; congruence|].
    destruct (memset0 c (h_mem h1) r1 (num * size)); cbn [bind] in E; try discriminate. injection E as <- <-.
    exists h1. split; reflexivity.
  Qed.
  Lemma grid_session h l evs h2 l2 : session c h l evs h2 l2 -> Forall (fun e => asks n (fst (fst e))) evs -> reachable c h l -> grid l -> grid l2.
  Proof.
    induction 1 as [|h l o h1 r evs h2 l2 P A S IH]; intros FA R GL; [exact GL|].
    inversion FA as [|x y AK FA']; subst. cbn [fst] in AK. apply IH; [exact FA'|exact (reachable_step c h l o h1 r R P A)|].
    destruct o as [m|num size|p| |bb|a v]; cbn [hold asks apply permitted] in *; try exact GL.
    - destruct (Z.eqb_spec r 0) as [Z0|Z0]; [exact GL|]. apply (alloc_at h l m h1 r R GL P AK A Z0).
    - destruct (Z.eqb_spec r 0) as [Z0|Z0]; [exact GL|]. destruct P as [P1 P2].
      destruct (calloc_as h l num size h1 r R P1 P2 A Z0) as (MS & h3 & A3 & <-).
      apply (alloc_at h l (num * size) h3 r R GL MS AK A3 Z0).
    - destruct GL as [F Q]. split; [|apply fop_filter, Q]. apply Forall_forall. intros b B. apply filter_In in B.
      rewrite Forall_forall in F. apply F, B.
  Qed.
  Lemma one_size_reach h l : one_size c n h l -> reachable c h l.
  Proof. intros (h0 & evs & E & S & _). exists h0, evs. auto. Qed.
  Lemma one_size_grid h l : one_size c n h l -> grid l.
  Proof.
    intros (h0 & evs & E & S & FA). apply (grid_session h0 [] evs h l S FA).
    - exists h0, []. split; [exact E|constructor].
    - split; constructor.
  Qed.
  Lemma one_size_step h l o h' r : one_size c n h l -> permitted l o -> asks n o -> apply c h o = Ok (h', r) ->
    one_size c n h' (hold l o r (free_heap_size h) (free_heap_size h')).
  Proof.
    intros (h0 & evs & E & S & FA) P AK A. exists h0, (evs ++ [(o, r, free_heap_size h')]). split; [exact E|]. split.
    - clear E FA. induction S as [|h l o1 h1 r1 evs h2 l2 P1 A1 S IH]; cbn [app].
      + econstructor; [exact P|exact A|constructor].
      + econstructor; [exact P1|exact A1|]. apply IH; assumption.
    - apply Forall_app. split; [exact FA|]. constructor; [exact AK|constructor].
  Qed.

  (** what fits *)
  Lemma w_small l a : free_window c l a n -> w < W64.
  Proof. intros (L & U & _). pose proof (placed_geo c PL RM) as GG. geo_facts GG. lia. Qed.
  Lemma room_left h l m h' r : one_size c n h l -> is_size m -> needed m = w -> allocate c h m = Ok (h', r) ->
    (length (cov l) < Z.to_nat K)%nat <-> r <> 0.
  Proof.
    intros O MS MW A. pose proof (one_size_grid h l O) as [F P]. pose proof places_is as (K0 & _).
    pose proof (one_size_reach h l O) as R.
    destruct (first_fit c PL RM h l m h' r R MS A) as [F1 _].
    assert (MP : 0 < m) by (pose proof w24; unfold needed in *; lia).
    split.
    - intros L. destruct (some_missing _ _ L) as (j & J & NI). pose proof (slot_free l j F (proj2 (fits_place (Z.of_nat j)) ltac:(lia)) NI) as W.
      apply F1. split; [exact MP|]. split; [rewrite MW; exact (w_small l _ W)|]. exists (s0 + w * Z.of_nat j). unfold free_window in *. rewrite MW. exact W.
    - intros NZ. destruct (alloc_at h l m h' r R (conj F P) MS MW A NZ) as ((j & _ & J2 & J3 & _) & _).
      apply fits_place in J2. pose proof (NoDup_incl_length (cov_nodup l (conj F P)) (cov_incl l F)) as L. rewrite seq_length in L.
      destruct (Nat.eq_dec (length (cov l)) (Z.to_nat K)) as [E|]; [exfalso|lia].
      apply J3. assert (I : incl (seq 0 (Z.to_nat K)) (cov l)).
      { apply NoDup_length_incl; [apply cov_nodup; split; assumption|rewrite seq_length; lia|apply cov_incl, F]. }
      apply I, in_seq. lia.
  Qed.
  Lemma pool_most h l : one_size c n h l -> Z.of_nat (length l) <= K.
  Proof.
    intros O. pose proof (one_size_grid h l O) as [F P]. pose proof places_is as (K0 & _).
    pose proof (NoDup_incl_length (cov_nodup l (conj F P)) (cov_incl l F)) as L. rewrite seq_length in L. pose proof (cov_length l F). lia.
  Qed.
  Lemma pool_exact h l m h' r : 32 < w -> one_size c n h l -> is_size m -> needed m = w -> allocate c h m = Ok (h', r) ->
    r <> 0 <-> Z.of_nat (length l) < K.
  Proof.
    intros B O MS MW A. rewrite <- (room_left h l m h' r O MS MW A). pose proof (one_size_grid h l O) as [F P].
    rewrite (cov_length_big l B F). pose proof places_is. lia.
  Qed.
  Lemma pool_half h l m h' r : one_size c n h l -> is_size m -> needed m = w -> allocate c h m = Ok (h', r) ->
    2 * Z.of_nat (length l) < K -> r <> 0.
  Proof.
    intros O MS MW A L. apply (room_left h l m h' r O MS MW A). pose proof (one_size_grid h l O) as [F P]. pose proof (cov_length l F). lia.
  Qed.
  Lemma cell_place b : cell b -> hd_ptr b = place c n (kk b).
  Proof. intros C. pose proof (ce_at b C). unfold region_start, place in *. lia. Qed.
  Lemma pool_places h l b : one_size c n h l -> In b l -> exists k, 0 <= k < K /\ hd_ptr b = place c n k.
  Proof.
    intros O B. pose proof (one_size_grid h l O) as [F P]. rewrite Forall_forall in F. pose proof (F b B) as C. exists (kk b).
    split; [|apply cell_place, C]. split; [apply (ce_k b C)|]. apply fits_place.
    pose proof (fp_range b C). pose proof (ce_at b C). pose proof (ce_end b C). pose proof (ce_f b C) as CF. pose proof w24.
    destruct CF as [E|[E _]]; rewrite E in *; lia.
  Qed.
  Lemma pool_lowest h l m h' r : 32 < w -> one_size c n h l -> is_size m -> needed m = w -> allocate c h m = Ok (h', r) -> r <> 0 ->
    exists k, 0 <= k < K /\ r = place c n k /\ (forall b, In b l -> hd_ptr b <> r) /\
      forall i, 0 <= i < k -> exists b, In b l /\ hd_ptr b = place c n i.
  Proof.
    intros B O MS MW A NZ. pose proof (one_size_grid h l O) as [F P].
    destruct (alloc_at h l m h' r (one_size_reach h l O) (conj F P) MS MW A NZ) as ((j & J1 & J2 & J3 & J4) & _).
    rewrite Forall_forall in F. exists (Z.of_nat j). apply fits_place in J2. split; [lia|]. split; [unfold place; lia|]. split.
    - intros b I E. apply J3, in_cov. exists b. split; [exact I|]. apply in_slots; [apply F, I|].
      pose proof (F b I) as C. pose proof (ce_at b C) as AT. pose proof (ce_f b C). unfold region_start in AT.
      assert (kk b = Z.of_nat j) by (apply Z.mul_reg_l with (p := w); [pose proof w24; lia|lia]). lia.
    - intros i I. specialize (J4 (Z.to_nat i) ltac:(lia)). apply in_cov in J4. destruct J4 as (b & IB & S). exists b. split; [exact IB|].
      pose proof (F b IB) as C. apply in_slots in S; [|exact C]. pose proof (ce_f b C). rewrite (cell_place b C). f_equal. lia.
  Qed.
End Uni.
