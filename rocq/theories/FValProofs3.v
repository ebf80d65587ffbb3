From Verif Require Import FValSpec FValProofs FValProofs2.

Lemma truncate_drops d n : truncate d = Some n <-> drops_to d n.
Proof.
  destruct d as [s | s | | s m e]; cbn [truncate drops_to]; try (split; [discriminate | contradiction]).
  - split; congruence.
  - set (q := if 0 <=? e then Zpos m * 2 ^ e else Zpos m / 2 ^ (- e)).
    assert (HQ : 0 <= q). { unfold q. destruct (Z.leb_spec 0 e); [nia |]. apply Z.div_pos; [lia |]. apply Z.pow_pos_nonneg; lia. }
    assert (G : forall k, 0 <= k -> 0 <= e + k -> forall a, 0 <= a -> (a * 2 ^ k <= Zpos m * 2 ^ (e + k) < (a + 1) * 2 ^ k <-> a = q)).
    { intros k H1 H2 a HA. assert (0 < 2 ^ k) by (apply Z.pow_pos_nonneg; lia). unfold q. destruct (Z.leb_spec 0 e) as [HE | HE].
      - rewrite Z.pow_add_r, Z.mul_assoc by lia. set (y := Zpos m * 2 ^ e) in *. split; [intros [A1 A2]; nia | intros ->; nia].
      - assert (0 < 2 ^ (- e)) by (apply Z.pow_pos_nonneg; lia). assert (0 < 2 ^ (e + k)) by (apply Z.pow_pos_nonneg; lia).
        replace (2 ^ k) with (2 ^ (- e) * 2 ^ (e + k)) by (rewrite <- Z.pow_add_r by lia; f_equal; lia).
        pose proof (Z.div_mod (Zpos m) (2 ^ (- e)) ltac:(lia)) as DM. pose proof (Z.mod_pos_bound (Zpos m) (2 ^ (- e)) ltac:(lia)) as MB.
        set (q' := Zpos m / 2 ^ (- e)) in *. set (r := Zpos m mod 2 ^ (- e)) in *. set (E := 2 ^ (- e)) in *. set (F := 2 ^ (e + k)) in *.
        rewrite !Z.mul_assoc. split.
        + intros [A1 A2]. apply Z.mul_le_mono_pos_r in A1; [| lia]. apply Z.mul_lt_mono_pos_r in A2; [| lia]. nia.
        + intros ->. split; [apply Z.mul_le_mono_nonneg_r; nia | apply Z.mul_lt_mono_pos_r; nia]. }
    split.
    + intros H. injection H as <-. split.
      * exists (Z.max 0 (- e)). split; [lia |]. split; [lia |]. apply (G (Z.max 0 (- e))); [lia | lia | lia |]. unfold cond_Zopp. destruct s; lia.
      * unfold cond_Zopp. destruct s; lia.
    + intros [(k & H1 & H2 & H3) H4]. apply G in H3; [| lia | lia | lia]. f_equal. unfold cond_Zopp. fold q. destruct s; lia.
Qed.

Lemma to_int_double d : (forall n, in_ity int_ty n -> drops_to d n -> to_int (ODouble d) = Ok n) /\
  ((forall n, in_ity int_ty n -> ~ drops_to d n) -> to_int (ODouble d) = UB).
Proof.
  unfold to_int, in_ity, int_ty, lo, hi. cbn [i_signed i_bits]. split.
  - intros n H1 H2. apply truncate_drops in H2. rewrite H2. change (32 - 1) with 31 in H1.
    destruct (Z.leb_spec (- 2 ^ 31) n); [| lia]. destruct (Z.ltb_spec n (2 ^ 31)); [| lia]. reflexivity.
  - intros H. destruct (truncate d) as [n |] eqn:E; [| reflexivity]. apply truncate_drops in E. 
    destruct (Z.leb_spec (- 2 ^ 31) n); [| reflexivity]. destruct (Z.ltb_spec n (2 ^ 31)); [| reflexivity].
    destruct (H n); [change (32 - 1) with 31; lia | exact E].
Qed.
Lemma to_int_int n : in_ity int_ty n -> to_int (OInt n) = Ok n.
Proof. intros H. cbn. f_equal. apply (ValuesProofs1.conv_id int_ty n int_ok H). Qed.

Lemma fadd_zero t x : fadd t x (of_int t 0) = x \/ (x = S754_zero true /\ fadd t x (of_int t 0) = S754_zero false).
Proof. destruct x as [[] | [] | | s m e]; cbn; auto. Qed.

Lemma nan_stays t obs : forall l w, f_val w = S754_nan -> Forall fis_rmw l -> f_val (frun_all t obs w l) = S754_nan.
Proof.
  induction l as [| o l IH]; intros w HW HL; [exact HW |]. inversion HL as [| ? ? H1 H2]; subst. cbn [frun_all]. apply IH; [| exact H2].
  cbn [frun fst f_val]. rewrite HW. destruct o; cbn in H1; try contradiction; reflexivity.
Qed.
