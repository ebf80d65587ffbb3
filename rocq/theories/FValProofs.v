From Verif Require Import FValSpec.

Lemma digits_log2 m : Zpos (digits2_pos m) = Z.log2 (Zpos m) + 1.
Proof.
  induction m as [m IH | m IH |].
  - cbn [digits2_pos]. rewrite Pos2Z.inj_succ, IH. rewrite (Pos2Z.inj_xI m), Z.log2_succ_double by lia. lia.
  - cbn [digits2_pos]. rewrite Pos2Z.inj_succ, IH. rewrite (Pos2Z.inj_xO m), Z.log2_double by lia. lia.
  - reflexivity.
Qed.
Lemma shift_pos_pow d m : Zpos (shift_pos d m) = Zpos m * 2 ^ Zpos d.
Proof. rewrite shift_pos_correct, Z.pow_pos_fold. lia. Qed.

Definition exact_rec (m : Z) : shr_record := Build_shr_record m false false.
Lemma shr_1_double k : 0 < k -> shr_1 (exact_rec (2 * k)) = exact_rec k.
Proof. intros H. destruct k as [| k | k]; try lia. reflexivity. Qed.
Lemma iter_shr p : forall k, 0 < k -> SpecFloat.iter_pos shr_1 p (exact_rec (k * 2 ^ Zpos p)) = exact_rec k.
Proof.
  induction p as [p IH | p IH |]; intros k HK; cbn [SpecFloat.iter_pos].
  - rewrite (Pos2Z.inj_xI p). replace (k * 2 ^ (2 * Zpos p + 1)) with (2 * (k * 2 ^ Zpos p * 2 ^ Zpos p)).
    + rewrite shr_1_double by lia. rewrite IH by lia. apply IH. exact HK.
    + rewrite Z.pow_add_r by lia. replace (2 * Z.pos p) with (Z.pos p + Z.pos p) by lia. rewrite Z.pow_add_r by lia. lia.
  - rewrite (Pos2Z.inj_xO p). replace (k * 2 ^ (2 * Zpos p)) with (k * 2 ^ Zpos p * 2 ^ Zpos p).
    + rewrite IH by lia. apply IH. exact HK.
    + replace (2 * Z.pos p) with (Z.pos p + Z.pos p) by lia. rewrite Z.pow_add_r by lia. lia.
  - change (2 ^ 1) with 2. rewrite (Z.mul_comm k 2). apply shr_1_double. exact HK.
Qed.

Section Format.
  Variable t : fty.
  Hypothesis HP : 2 <= f_prec t.
  Hypothesis HE : f_prec t < f_emax t.
  Notation prec := (f_prec t).
  Notation emax := (f_emax t).

  (** The mantissa and exponent of the positive integer [A]. *)
  Definition c_exp (A : Z) : Z := Z.log2 A + 1 - prec.
  Definition c_man (A : Z) : Z := if c_exp A <=? 0 then A * 2 ^ (- c_exp A) else A / 2 ^ c_exp A.
  Definition canon (s : bool) (A : Z) : spec_float := S754_finite s (Z.to_pos (c_man A)) (c_exp A).

  Lemma c_exp_le A : 0 < A <= 2 ^ prec -> c_exp A <= 1.
  Proof.
    intros H. unfold c_exp. pose proof (Z.log2_le_mono A (2 ^ prec) ltac:(lia)) as HL. rewrite Z.log2_pow2 in HL by lia. lia.
  Qed.
  Lemma c_man_eq A d : 0 < A <= 2 ^ prec -> 0 <= d -> 0 <= d + c_exp A -> c_man A * 2 ^ (c_exp A + d) = A * 2 ^ d.
  Proof.
    intros HA HD HDE. unfold c_man. pose proof (c_exp_le A HA) as HL. destruct (Z.leb_spec (c_exp A) 0) as [H | H].
    - rewrite <- Z.mul_assoc, <- Z.pow_add_r by lia. f_equal. f_equal. lia.
    - assert (E1 : c_exp A = 1) by lia.
      assert (EA : A = 2 ^ prec).
      { unfold c_exp in E1. assert (EL : Z.log2 A = prec) by lia. pose proof (Z.log2_spec A ltac:(lia)) as [H1 _]. rewrite EL in H1. lia. }
      rewrite E1. subst A. replace prec with (Z.succ (prec - 1)) at 1 by lia. rewrite Z.pow_succ_r by lia.
      change (2 ^ 1) with 2. rewrite Z.mul_comm, (Z.mul_comm 2), Z.div_mul by lia.
      replace (1 + d) with (Z.succ d) by lia. rewrite Z.pow_succ_r by lia.
      replace prec with (Z.succ (prec - 1)) at 2 by lia. rewrite Z.pow_succ_r by lia. lia.
  Qed.
  Lemma c_man_pos A : 0 < A <= 2 ^ prec -> 0 < c_man A.
  Proof.
    intros HA. pose proof (c_man_eq A (Z.max 0 (- c_exp A)) HA ltac:(lia) ltac:(lia)) as H.
    assert (0 < A * 2 ^ (Z.max 0 (- c_exp A))) by (apply Z.mul_pos_pos; [lia | apply Z.pow_pos_nonneg; lia]).
    assert (0 < 2 ^ (c_exp A + Z.max 0 (- c_exp A))) by (apply Z.pow_pos_nonneg; lia). nia.
  Qed.
  (** Equal values: the logarithms differ by the exponent. *)
  Lemma log2_val m e A d : 0 < m -> 0 < A -> 0 <= d -> 0 <= e + d -> m * 2 ^ (e + d) = A * 2 ^ d -> Z.log2 m + e = Z.log2 A.
  Proof.
    intros HM HA HD HED H. apply (f_equal Z.log2) in H. rewrite !Z.log2_mul_pow2 in H by lia. lia.
  Qed.

  Lemma fexp_val A : 0 < A -> fexp prec emax (Z.log2 A + 1) = c_exp A.
  Proof. intros H. unfold fexp, emin, c_exp. pose proof (Z.log2_nonneg A). lia. Qed.

  Lemma c_man_digits A : 0 < A <= 2 ^ prec -> Z.log2 (c_man A) + c_exp A = Z.log2 A.
  Proof.
    intros HA. pose proof (c_man_pos A HA). apply (log2_val _ _ _ (Z.max 0 (- c_exp A))); try lia. apply c_man_eq; lia.
  Qed.

  (** A mantissa that needs no rounding. *)
  Lemma aux_exact s A : 0 < A <= 2 ^ prec -> forall m e, 0 < m ->
    (exists n, 0 <= n /\ m = c_man A * 2 ^ n /\ e + n = c_exp A) ->
    binary_round_aux prec emax s m e loc_Exact = canon s A.
  Proof.
    intros HA m e HM (n & HN & EM & EE). pose proof (c_man_pos A HA) as HK. pose proof (c_man_digits A HA) as HD.
    assert (ED : Zdigits2 m + e = Z.log2 A + 1).
    { destruct m as [| m | m]; try lia. cbn [Zdigits2]. rewrite digits_log2, EM, Z.log2_mul_pow2 by lia. lia. }
    assert (EK : Zdigits2 (c_man A) + c_exp A = Z.log2 A + 1).
    { destruct (c_man A) as [| k | k]; try lia. cbn [Zdigits2]. rewrite digits_log2. lia. }
    assert (S1 : shr_fexp prec emax m e loc_Exact = (exact_rec (c_man A), c_exp A)).
    { unfold shr_fexp. rewrite ED, fexp_val by lia. cbn [shr_record_of_loc]. change (Build_shr_record m false false) with (exact_rec m).
      replace (c_exp A - e) with n by lia. unfold shr. destruct n as [| n | n]; try lia.
      - change (2 ^ 0) with 1 in EM. f_equal; [f_equal |]; lia.
      - rewrite EM, iter_shr by lia. f_equal. lia. }
    assert (S2 : shr_fexp prec emax (c_man A) (c_exp A) loc_Exact = (exact_rec (c_man A), c_exp A)).
    { unfold shr_fexp. rewrite EK, fexp_val by lia. rewrite Z.sub_diag. reflexivity. }
    unfold binary_round_aux. rewrite S1. cbn [exact_rec shr_m loc_of_shr_record round_nearest_even]. rewrite S2. cbn [exact_rec shr_m].
    unfold canon. destruct (c_man A) as [| k | k]; try lia. cbn [Z.to_pos].
    pose proof (c_exp_le A HA). replace (c_exp A <=? emax - prec) with true by (symmetry; apply Z.leb_le; lia). reflexivity.
  Qed.

  Lemma round_exact s m e A d : 0 < A <= 2 ^ prec -> 0 <= d -> 0 <= e + d -> Zpos m * 2 ^ (e + d) = A * 2 ^ d ->
    binary_round prec emax s m e = canon s A.
  Proof.
    intros HA HD HED H. pose proof (log2_val (Zpos m) e A d ltac:(lia) ltac:(lia) HD HED H) as HL.
    pose proof (c_man_pos A HA) as HK.
    unfold binary_round. rewrite digits_log2. replace (Z.log2 (Zpos m) + 1 + e) with (Z.log2 A + 1) by lia. rewrite fexp_val by lia.
    unfold shl_align. destruct (Z_lt_le_dec (c_exp A) e) as [HC | HC].
    - destruct (c_exp A - e) as [| p | p] eqn:EP; try lia. apply aux_exact; [exact HA | lia |]. exists 0. split; [lia |]. split; [| lia].
      rewrite shift_pos_pow. change (2 ^ 0) with 1. rewrite Z.mul_1_r.
      assert (HX : Zpos m * 2 ^ Zpos p * 2 ^ (c_exp A + (d + Z.max 0 (- c_exp A))) = c_man A * 2 ^ (c_exp A + (d + Z.max 0 (- c_exp A)))).
      { rewrite c_man_eq by lia. rewrite <- Z.mul_assoc, <- Z.pow_add_r by lia.
        replace (Z.pos p + (c_exp A + (d + Z.max 0 (- c_exp A)))) with ((e + d) + Z.max 0 (- c_exp A)) by lia.
        rewrite (Z.pow_add_r 2 (e + d)), Z.mul_assoc, H by lia. rewrite <- Z.mul_assoc, <- Z.pow_add_r by lia. reflexivity. }
      apply Z.mul_reg_r in HX; [exact HX |]. apply Z.pow_nonzero; lia.
    - assert (EM : Zpos m = c_man A * 2 ^ (c_exp A - e)).
      { assert (HX : Zpos m * 2 ^ (e + d) = c_man A * 2 ^ (c_exp A - e) * 2 ^ (e + d)).
        { rewrite H, <- (c_man_eq A d HA HD ltac:(lia)), <- Z.mul_assoc, <- Z.pow_add_r by lia. f_equal. f_equal. lia. }
        apply Z.mul_reg_r in HX; [exact HX |]. apply Z.pow_nonzero; lia. }
      assert (HR : binary_round_aux prec emax s (Zpos m) e loc_Exact = canon s A).
      { apply aux_exact; [exact HA | lia |]. exists (c_exp A - e). split; [lia |]. split; [exact EM | lia]. }
      destruct (c_exp A - e) as [| p | p] eqn:EP; try lia; exact HR.
  Qed.

  (** The number for the integer [a]. *)
  Definition fint (a : Z) : spec_float :=
    match a with Z0 => S754_zero false | Zpos p => canon false (Zpos p) | Zneg p => canon true (Zpos p) end.

  Lemma norm_exact m e a d : Z.abs a <= 2 ^ prec -> 0 <= d -> 0 <= e + d -> m * 2 ^ (e + d) = a * 2 ^ d ->
    binary_normalize prec emax m e false = fint a.
  Proof.
    intros HA HD HED H. assert (P1 : 0 < 2 ^ (e + d)) by (apply Z.pow_pos_nonneg; lia). assert (P2 : 0 < 2 ^ d) by (apply Z.pow_pos_nonneg; lia).
    unfold binary_normalize. destruct m as [| m | m]; destruct a as [| a | a]; try nia; cbn [fint].
    - reflexivity.
    - apply (round_exact false m e (Zpos a) d); lia.
    - apply (round_exact true m e (Zpos a) d); lia.
  Qed.
  Lemma of_int_fint a : Z.abs a <= 2 ^ prec -> of_int t a = fint a.
  Proof. intros H. apply (norm_exact a 0 a 0); lia. Qed.

  Lemma align_val m e e' : e' <= e -> Zpos (fst (shl_align m e e')) = Zpos m * 2 ^ (e - e').
  Proof.
    intros H. unfold shl_align. destruct (e' - e) as [| p | p] eqn:EP; try lia; cbn [fst].
    - replace (e - e') with 0 by lia. lia.
    - rewrite shift_pos_pow. f_equal. f_equal. lia.
  Qed.

  (** The signed value of [canon]. *)
  Lemma canon_val s A d : 0 < A <= 2 ^ prec -> 0 <= d -> 0 <= d + c_exp A ->
    cond_Zopp s (Zpos (Z.to_pos (c_man A))) * 2 ^ (c_exp A + d) = cond_Zopp s A * 2 ^ d.
  Proof.
    intros HA HD HE'. pose proof (c_man_pos A HA). rewrite Z2Pos.id by lia. pose proof (c_man_eq A d HA HD HE').
    destruct s; cbn [cond_Zopp]; lia.
  Qed.

  Lemma canon_add f s1 A1 s2 A2 : 0 < A1 <= 2 ^ prec -> 0 < A2 <= 2 ^ prec -> (f = Z.add \/ f = Z.sub) ->
    Z.abs (f (cond_Zopp s1 A1) (cond_Zopp s2 A2)) <= 2 ^ prec ->
    let ez := Z.min (c_exp A1) (c_exp A2) in
    binary_normalize prec emax
      (f (cond_Zopp s1 (Zpos (fst (shl_align (Z.to_pos (c_man A1)) (c_exp A1) ez))))
         (cond_Zopp s2 (Zpos (fst (shl_align (Z.to_pos (c_man A2)) (c_exp A2) ez))))) ez false
    = fint (f (cond_Zopp s1 A1) (cond_Zopp s2 A2)).
  Proof.
    intros H1 H2 HF HB ez.
    assert (HC : forall (s : bool) a b, cond_Zopp s (a * b) = cond_Zopp s a * b) by (intros [] a b; cbn [cond_Zopp]; lia).
    set (d := Z.max 0 (- ez)).
    apply (norm_exact _ _ _ d); [exact HB | lia | lia |].
    rewrite !align_val by lia. rewrite !HC.
    pose proof (canon_val s1 A1 d H1 ltac:(lia) ltac:(lia)) as E1. pose proof (canon_val s2 A2 d H2 ltac:(lia) ltac:(lia)) as E2.
    replace (2 ^ (c_exp A1 + d)) with (2 ^ (c_exp A1 - ez) * 2 ^ (ez + d)) in E1 by (rewrite <- Z.pow_add_r by lia; f_equal; lia).
    replace (2 ^ (c_exp A2 + d)) with (2 ^ (c_exp A2 - ez) * 2 ^ (ez + d)) in E2 by (rewrite <- Z.pow_add_r by lia; f_equal; lia).
    destruct HF as [-> | ->].
    - rewrite !Z.mul_add_distr_r. lia.
    - rewrite !Z.mul_sub_distr_r. lia.
  Qed.

  Lemma fadd_fint a b : Z.abs a <= 2 ^ prec -> Z.abs b <= 2 ^ prec -> Z.abs (a + b) <= 2 ^ prec ->
    fadd t (fint a) (fint b) = fint (a + b).
  Proof.
    intros HA HB HS. unfold fadd.
    destruct a as [| a | a]; [destruct b; reflexivity | |]; (destruct b as [| b | b]; [reflexivity | |]); cbn [fint canon SFadd].
    - apply (canon_add Z.add false (Zpos a) false (Zpos b)); auto; lia.
    - apply (canon_add Z.add false (Zpos a) true (Zpos b)); auto; lia.
    - apply (canon_add Z.add true (Zpos a) false (Zpos b)); auto; lia.
    - apply (canon_add Z.add true (Zpos a) true (Zpos b)); auto; lia.
  Qed.
  Lemma fsub_fint a b : Z.abs a <= 2 ^ prec -> Z.abs b <= 2 ^ prec -> Z.abs (a - b) <= 2 ^ prec ->
    fsub t (fint a) (fint b) = fint (a - b).
  Proof.
    intros HA HB HS. unfold fsub.
    destruct a as [| a | a]; [destruct b; reflexivity | |]; (destruct b as [| b | b]; [reflexivity | |]); cbn [fint canon SFsub].
    - apply (canon_add Z.sub false (Zpos a) false (Zpos b)); auto; lia.
    - apply (canon_add Z.sub false (Zpos a) true (Zpos b)); auto; lia.
    - apply (canon_add Z.sub true (Zpos a) false (Zpos b)); auto; lia.
    - apply (canon_add Z.sub true (Zpos a) true (Zpos b)); auto; lia.
  Qed.

  (** [exactly] has one solution. *)
  Lemma fint_exactly a : Z.abs a <= 2 ^ prec -> exactly t a (fint a).
  Proof.
    intros HA. assert (HC : forall (s : bool) (A : Z), 0 < A <= 2 ^ prec -> exactly t (if s then - A else A) (canon s A)).
    { intros s A H. pose proof (c_man_pos A H) as HK. split.
      - cbn. unfold bounded, canonical_mantissa. rewrite digits_log2, Z2Pos.id by lia.
        replace (Z.log2 (c_man A) + 1 + c_exp A) with (Z.log2 A + 1) by (pose proof (c_man_digits A H); lia).
        rewrite fexp_val by lia. pose proof (c_exp_le A H). apply andb_true_intro. split; [apply Zeq_is_eq_bool; reflexivity | apply Z.leb_le; lia].
      - exists (Z.max 0 (- c_exp A)). split; [lia |]. split; [lia |].
        pose proof (canon_val s A (Z.max 0 (- c_exp A)) H ltac:(lia) ltac:(lia)) as HV. destruct s; exact HV. }
    destruct a as [| a | a].
    - split; [reflexivity | split; reflexivity].
    - apply (HC false (Zpos a)). lia.
    - apply (HC true (Zpos a)). lia.
  Qed.
  Lemma exactly_fint a x : Z.abs a <= 2 ^ prec -> exactly t a x -> x = fint a.
  Proof.
    intros HA [HV HI]. destruct x as [s | s | | s m e]; cbn in HI; try contradiction.
    - destruct HI as [-> ->]. reflexivity.
    - destruct HI as (d & HD & HED & H). cbn in HV. apply andb_prop in HV as [HC _]. apply Zeq_bool_eq in HC.
      assert (P1 : 0 < 2 ^ (e + d)) by (apply Z.pow_pos_nonneg; lia). assert (P2 : 0 < 2 ^ d) by (apply Z.pow_pos_nonneg; lia).
      assert (HG : forall A, 0 < A <= 2 ^ prec -> Zpos m * 2 ^ (e + d) = A * 2 ^ d -> S754_finite s m e = canon s A).
      { intros A HAA HX. pose proof (log2_val (Zpos m) e A d ltac:(lia) ltac:(lia) HD HED HX) as HL.
        rewrite digits_log2 in HC. replace (Z.log2 (Zpos m) + 1 + e) with (Z.log2 A + 1) in HC by lia. rewrite fexp_val in HC by lia.
        unfold canon. rewrite HC. f_equal. pose proof (c_man_eq A d HAA HD ltac:(lia)) as HM. rewrite HC, <- HX in HM.
        apply Z.mul_reg_r in HM; [| lia]. rewrite HM. reflexivity. }
      destruct s, a as [| a | a]; try nia; cbn [fint]; apply HG; lia.
  Qed.
  Lemma exactly_iff a x : Z.abs a <= 2 ^ prec -> (exactly t a x <-> x = of_int t a).
  Proof.
    intros HA. rewrite of_int_fint by exact HA. split; [apply exactly_fint; exact HA | intros ->; apply fint_exactly; exact HA].
  Qed.
End Format.
