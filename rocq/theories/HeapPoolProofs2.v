(** Small requests of one size: half of the places can be lost. *)
From Verif Require Export HeapPoolProofs.

Section Half.
  Variable c : cfg.
  Hypothesis PL : placed c.
  Hypothesis RM : roomy c.
  Notation G := (placed_geo c PL RM).
  Variable n : Z.
  Hypothesis NP : 0 < n.
  Hypothesis NS : is_size n.
  Notation s0 := (area_start c).
  Notation e0 := (area_end c).
  Notation w := (needed n).
  Notation K := (places c n).
  Notation cell := (cell c n).
  Notation cov := (cov c n).

  Lemma os_nil : exists h, one_size c n h [].
  Proof.
    destruct (construct_spec c G (g_size c G)) as (mm & E & _). eexists. eexists. exists []. split; [exact E|]. split; constructor.
  Qed.
  Lemma os_alloc h l j e : one_size c n h l -> free_window c l (s0 + w * Z.of_nat j) n ->
    (forall i, (i < j)%nat -> In i (cov l)) ->
    (e = e0 \/ exists b, In b l /\ region_start b = e) -> s0 + w * Z.of_nat j <= e -> e <= e0 ->
    (forall b, In b l -> s0 + w * Z.of_nat j <= region_start b -> e <= region_start b) ->
    exists h', one_size c n h' (Held (place c n (Z.of_nat j)) n (if e - (s0 + w * Z.of_nat j) - w <=? 32 then e - (s0 + w * Z.of_nat j) else w) :: l).
  Proof.
    intros O W LOW E1 E2 E3 E4. pose proof (one_size_reach c n h l O) as R. pose proof (w24 n NP) as W24.
    destruct (calls_defined c PL RM h l (Alloc n) R NS) as (h' & r & A).
    pose proof (one_size_step c n h l (Alloc n) h' r O NS eq_refl A) as O'. cbn [apply hold] in A, O'.
    destruct (first_fit c PL RM h l n h' r R NS A) as [F1 F2].
    assert (NZ : r <> 0).
    { apply F1. split; [exact NP|]. split; [exact (w_small c PL RM n l _ W)|eauto]. }
    destruct (alloc_at c PL RM n NP h l n h' r R (one_size_grid c PL RM n NP h l O) NS eq_refl A NZ) as ((i & I1 & I2 & I3 & I4) & _).
    destruct (F2 NZ) as [_ M]. specialize (M _ W).
    assert (IJ : i = j).
    { assert (Z.of_nat i <= Z.of_nat j) by (apply Z.mul_le_mono_pos_l with (p := w); lia).
      destruct (Nat.eq_dec i j); [assumption|]. exfalso. apply I3, LOW. lia. }
    subst i. pose proof (footprint c PL RM h l n h' r R NS A NZ) as FP. cbv zeta in FP. rewrite I1 in FP.
    rewrite (ceiling_spec c l (s0 + w * Z.of_nat j) e E1 E2 E3 E4) in FP.
    destruct (Z.eqb_spec r 0); [contradiction|]. exists h'. rewrite FP in O'. replace r with (place c n (Z.of_nat j)) in O' by (unfold place; lia). exact O'.
  Qed.
  Lemma os_free h l k b : one_size c n h (l ++ b :: k) -> exists h', one_size c n h' (l ++ k).
  Proof.
    intros O. pose proof (one_size_reach c n h _ O) as R.
    assert (P : permitted (l ++ b :: k) (Free (hd_ptr b))) by (right; exists b; split; [apply in_elt|reflexivity]).
    destruct (calls_defined c PL RM h _ (Free (hd_ptr b)) R P) as (h' & r & A).
    pose proof (one_size_step c n h _ (Free (hd_ptr b)) h' r O P Logic.I A) as O'. cbn [hold] in O'.
    exists h'. pose proof (inv_nodup c PL RM h _ (inv_reachable c _ _ G R)) as ND. rewrite map_app in ND. cbn [map] in ND.
    rewrite filter_app in O'. cbn [filter] in O'. rewrite Z.eqb_refl in O'. cbn [negb] in O'.
    apply NoDup_remove_2 in ND.
    rewrite !filter_id in O'; [exact O'| |]; intros x X; (destruct (Z.eqb_spec (hd_ptr x) (hd_ptr b)) as [E|]; [exfalso|reflexivity]);
      apply ND, in_or_app; [right|left]; rewrite <- E; apply in_map, X.
  Qed.
  Lemma os_fill : forall d h l, one_size c n h l -> (Z.to_nat K <= length (cov l) + d)%nat ->
    exists h' l', one_size c n h' l' /\ (length l' <= length l + d)%nat /\ forall h2 r, allocate c h' n = Ok (h2, r) -> r = 0.
  Proof.
    induction d as [|d IH]; intros h l O L.
    - exists h, l. split; [exact O|]. split; [lia|]. intros h2 r A. destruct (Z.eq_dec r 0) as [|NZ]; [assumption|exfalso].
      apply (room_left c PL RM n NP h l n h2 r O NS eq_refl A) in NZ. lia.
    - destruct (calls_defined c PL RM h l (Alloc n) (one_size_reach c n h l O) NS) as (h1 & r & A).
      pose proof (one_size_step c n h l (Alloc n) h1 r O NS eq_refl A) as O'. cbn [apply hold] in A, O'.
      destruct (Z.eqb_spec r 0) as [E|NZ].
      + exists h, l. split; [exact O|]. split; [lia|]. intros h2 r2 A2. congruence.
      + destruct (IH h1 _ O') as (h' & l' & O2 & L2 & A2).
        * unfold HeapPoolProofs.cov in *. cbn [flat_map]. rewrite app_length.
          destruct (one_size_grid c PL RM n NP _ _ O') as [F _]. inversion F as [|x k C _]; subst. pose proof (ce_f _ _ _ C).
          unfold slots at 1. rewrite seq_length. lia.
        * exists h', l'. split; [exact O2|]. cbn [length] in L2. split; [lia|exact A2].
  Qed.

  (** rows of single and of double blocks *)
  Definition single (k : nat) : held := Held (place c n (Z.of_nat k)) n w.
  Definition double (k : nat) : held := Held (place c n (Z.of_nat k)) n (2 * w).
  Fixpoint singles (a m : nat) : list held :=
    match m with
    | O => []
    | S m => singles (S a) m ++ [single a]
    end.
  Fixpoint doubles (j : nat) : list held :=
    match j with
    | O => []
    | S j => double (2 * j) :: doubles j
    end.
  Lemma in_singles m : forall a b, In b (singles a m) <-> exists i, (a <= i < a + m)%nat /\ b = single i.
  Proof.
    induction m as [|m IH]; intros a b; cbn [singles].
    - split; [intros []|intros (i & L & _); lia].
    - rewrite in_app_iff, IH. cbn [In]. split.
      + intros [(i & L & ->)|[<-|[]]]; [exists i|exists a]; split; auto; lia.
      + intros (i & L & ->). destruct (Nat.eq_dec i a) as [->|]; [right; left; reflexivity|left; exists i; split; [lia|reflexivity]].
  Qed.
  Lemma in_doubles j b : In b (doubles j) <-> exists i, (i < j)%nat /\ b = double (2 * i).
  Proof.
    induction j as [|j IH]; cbn [doubles In].
    - split; [intros []|intros (i & L & _); lia].
    - rewrite IH. split.
      + intros [<-|(i & L & ->)]; [exists j|exists i]; split; auto; lia.
      + intros (i & L & ->). destruct (Nat.eq_dec i j) as [->|]; [left; reflexivity|right; exists i; split; [lia|reflexivity]].
  Qed.
  Lemma singles_snoc m : forall a, singles a (S m) = single (a + m) :: singles a m.
  Proof.
    induction m as [|m IH]; intros a; [cbn; rewrite Nat.add_0_r; reflexivity|].
    change (singles a (S (S m))) with (singles (S a) (S m) ++ [single a]). rewrite IH. cbn [app singles].
    replace (S a + m)%nat with (a + S m)%nat by lia. reflexivity.
  Qed.
  Lemma length_singles m : forall a, length (singles a m) = m.
  Proof. induction m as [|m IH]; intros a; [reflexivity|]. cbn [singles]. rewrite app_length, IH. cbn. lia. Qed.
  Lemma length_doubles j : length (doubles j) = j.
  Proof. induction j as [|j IH]; cbn; congruence. Qed.
  Lemma place_eq k : region_start (Held (place c n k) n 0) = s0 + w * k.
  Proof. unfold region_start, place. cbn. lia. Qed.
  Lemma kk_place k m f : kk c n (Held (place c n k) m f) = k.
  Proof.
    unfold kk, region_start, place. cbn [hd_ptr]. pose proof (w24 n NP). replace (s0 + w * k + 16 - 16 - s0) with (k * w) by ring. apply Z.div_mul. lia.
  Qed.
  Lemma slots_single k : slots c n (single k) = [k].
  Proof. unfold slots, single. rewrite kk_place. unfold ff. cbn [hd_fp]. pose proof (w24 n NP). rewrite Z.div_same, Nat2Z.id by lia. reflexivity. Qed.
  Lemma slots_double k : slots c n (double k) = [k; S k].
  Proof. unfold slots, double. rewrite kk_place. unfold ff. cbn [hd_fp]. pose proof (w24 n NP). rewrite Z.div_mul, Nat2Z.id by lia. reflexivity. Qed.

  Lemma os_row i : Z.of_nat i + 2 <= K -> exists h, one_size c n h (singles 0 i).
  Proof.
    pose proof (w24 n NP) as W24. pose proof (places_is c RM n NP) as (K0 & K1 & K2).
    induction i as [|i IH]; intros L; [exact os_nil|]. destruct IH as (h & O); [lia|].
    rewrite singles_snoc. cbn [Nat.add].
    assert (B : w * Z.of_nat i + 3 * w <= w * K) by (replace (w * Z.of_nat i + 3 * w) with (w * (Z.of_nat i + 3)) by ring; apply Z.mul_le_mono_nonneg_l; lia).
    assert (BI : 0 <= w * Z.of_nat i) by (apply Z.mul_nonneg_nonneg; lia).
    assert (UP : forall b, In b (singles 0 i) -> exists k, (k < i)%nat /\ b = single k /\ region_start b + w <= s0 + w * Z.of_nat i).
    { intros b I. apply in_singles in I. destruct I as (k & LK & ->). exists k. split; [lia|]. split; [reflexivity|].
      assert (w * (Z.of_nat k + 1) <= w * Z.of_nat i) by (apply Z.mul_le_mono_nonneg_l; lia).
      unfold single, region_start, place. cbn [hd_ptr]. lia. }
    destruct (os_alloc h (singles 0 i) i e0 O) as (h' & O').
    - split; [lia|]. split; [lia|]. intros b I. destruct (UP b I) as (k & LK & -> & E). right. cbn [single hd_fp]. exact E.
    - intros k LK. apply in_cov. exists (single k). split; [apply in_singles; exists k; split; [lia|reflexivity]|]. rewrite slots_single. left. reflexivity.
    - left. reflexivity.
    - lia.
    - lia.
    - intros b I L2. exfalso. destruct (UP b I) as (k & LK & -> & E). lia.
    - exists h'. destruct (Z.leb_spec (e0 - (s0 + w * Z.of_nat i) - w) 32); [lia|]. exact O'.
  Qed.
  Lemma os_pairs p : w <= 32 -> 2 * Z.of_nat p + 3 <= K ->
    forall j, (j <= p)%nat -> exists h, one_size c n h (doubles j ++ singles (2 * j) (2 * (p - j) + 1)).
  Proof.
    intros WS LK. pose proof (w24 n NP) as W24. pose proof (places_is c RM n NP) as (K0 & K1 & K2).
    induction j as [|j IH]; intros L.
    - rewrite Nat.sub_0_r. cbn [doubles app Nat.mul]. apply os_row. lia.
    - destruct IH as (h & O); [lia|].
      replace (2 * (p - j) + 1)%nat with (S (S (2 * (p - S j) + 1))) in O by lia.
      set (q := (2 * (p - S j) + 1)%nat) in *. cbn [singles] in O. rewrite !app_assoc in O.
      destruct (os_free h _ [] _ O) as (h1 & O1). rewrite app_nil_r in O1.
      destruct (os_free h1 _ [] _ O1) as (h2 & O2). rewrite app_nil_r in O2.
      replace (S (S (2 * j))) with (2 * S j)%nat in O2 by lia.
      set (l := doubles j ++ singles (2 * S j) q) in *.
      assert (BJ : w * (2 * Z.of_nat j) + 3 * w <= w * K) by (replace (w * (2 * Z.of_nat j) + 3 * w) with (w * (2 * Z.of_nat j + 3)) by ring; apply Z.mul_le_mono_nonneg_l; lia).
      assert (B0 : 0 <= w * Z.of_nat j) by (apply Z.mul_nonneg_nonneg; lia).
      assert (EJ : s0 + w * Z.of_nat (2 * j) = s0 + w * (2 * Z.of_nat j)) by (f_equal; f_equal; lia).
      assert (UP : forall b, In b l -> region_start b + hd_fp b <= s0 + w * (2 * Z.of_nat j) /\ 0 < hd_fp b \/ s0 + w * (2 * Z.of_nat j) + 2 * w <= region_start b).
      { intros b I. apply in_app_or in I. destruct I as [I|I].
        - left. apply in_doubles in I. destruct I as (k & KJ & ->). unfold double, region_start, place. cbn [hd_ptr hd_fp].
          assert (w * (Z.of_nat k + 1) <= w * Z.of_nat j) by (apply Z.mul_le_mono_nonneg_l; lia).
          replace (Z.of_nat (2 * k)) with (2 * Z.of_nat k) by lia. lia.
        - right. apply in_singles in I. destruct I as (k & KJ & ->). unfold single, region_start, place. cbn [hd_ptr hd_fp].
          assert (w * (2 * Z.of_nat j + 2) <= w * Z.of_nat k) by (apply Z.mul_le_mono_nonneg_l; lia). lia. }
      assert (NX : In (single (2 * S j)) l) by (apply in_or_app; right; apply in_singles; exists (2 * S j)%nat; split; [lia|reflexivity]).
      assert (NR : region_start (single (2 * S j)) = s0 + w * (2 * Z.of_nat j) + 2 * w).
      { unfold single, region_start, place. cbn [hd_ptr]. replace (Z.of_nat (2 * S j)) with (2 * Z.of_nat j + 2) by lia. lia. }
      destruct (os_alloc h2 l (2 * j) (s0 + w * (2 * Z.of_nat j) + 2 * w) O2) as (h' & O').
      + rewrite EJ. split; [lia|]. split; [lia|]. intros b I. unfold disjoint. destruct (UP b I) as [U|U]; lia.
      + intros i LI. apply in_cov. exists (double (2 * (i / 2))). split.
        * apply in_or_app. left. apply in_doubles. exists (i / 2)%nat. split; [|reflexivity]. apply Nat.div_lt_upper_bound; lia.
        * rewrite slots_double. pose proof (Nat.div_mod_eq i 2). pose proof (Nat.mod_upper_bound i 2). cbn [In]. lia.
      + right. exists (single (2 * S j)). split; [exact NX|exact NR].
      + lia.
      + lia.
      + intros b I LB. destruct (UP b I) as [U|U]; lia.
      + exists h'. rewrite EJ in O'. destruct (Z.leb_spec (s0 + w * (2 * Z.of_nat j) + 2 * w - (s0 + w * (2 * Z.of_nat j)) - w) 32); [|lia].
        cbn [doubles app]. unfold double at 1. replace (2 * w) with (s0 + w * (2 * Z.of_nat j) + 2 * w - (s0 + w * (2 * Z.of_nat j))) at 1 by lia. exact O'.
  Qed.
  Lemma cov_doubles j : length (cov (doubles j)) = (2 * j)%nat.
  Proof.
    induction j as [|j IH]; [reflexivity|]. cbn [doubles]. unfold HeapPoolProofs.cov in *. cbn [flat_map]. rewrite slots_double, app_length, IH. cbn [length]. lia.
  Qed.
  Lemma half_lost : w <= 32 -> exists h l, one_size c n h l /\ 2 * Z.of_nat (length l) <= K + 4 /\
    forall h' r, allocate c h n = Ok (h', r) -> r = 0.
  Proof.
    intros WS. pose proof (places_is c RM n NP) as (K0 & _). destruct (Z.lt_ge_cases K 3) as [L|L].
    - destruct os_nil as (h & O). destruct (os_fill (Z.to_nat K) h [] O) as (h' & l' & O' & L' & A'); [lia|].
      exists h', l'. split; [exact O'|]. cbn [length] in L'. split; [lia|exact A'].
    - set (p := Z.to_nat ((K - 3) / 2)).
      assert (PK : 2 * Z.of_nat p + 3 <= K <= 2 * Z.of_nat p + 4) by (unfold p; lia).
      destruct (os_pairs p WS (proj1 PK) p (le_n _)) as (h & O). rewrite Nat.sub_diag in O. cbn [Nat.mul Nat.add] in O.
      destruct (os_fill (Z.to_nat (K - 2 * Z.of_nat p - 1)) h _ O) as (h' & l' & O' & L' & A').
      + unfold HeapPoolProofs.cov. rewrite flat_map_app, app_length. fold (cov (doubles p)). rewrite cov_doubles. cbn [singles app flat_map]. rewrite slots_single. cbn [length app]. lia.
      + exists h', l'. split; [exact O'|]. rewrite app_length, length_doubles, length_singles in L'. split; [lia|exact A'].
  Qed.
End Half.
