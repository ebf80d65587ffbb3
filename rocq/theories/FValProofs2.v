From Verif Require Import FValSpec FValProofs ValuesProofs1 ValuesProofs2.

Lemma fty_prec t : fty_ok t -> 2 <= f_prec t /\ f_prec t < f_emax t.
Proof. intros [-> | ->]; cbn; lia. Qed.
Lemma pow_prec t : fty_ok t -> 1 <= 2 ^ f_prec t.
Proof. intros H. destruct (fty_prec t H). pose proof (Z.pow_pos_nonneg 2 (f_prec t) ltac:(lia) ltac:(lia)). lia. Qed.

(** ** integers in floating point *)
Lemma of_int_exactly t a : fty_ok t -> Z.abs a <= 2 ^ f_prec t -> exactly t a (of_int t a).
Proof. intros H HA. destruct (fty_prec t H). apply exactly_iff; auto. Qed.
Lemma exactly_of_int t a x : fty_ok t -> Z.abs a <= 2 ^ f_prec t -> exactly t a x -> x = of_int t a.
Proof. intros H HA. destruct (fty_prec t H). apply exactly_iff; auto. Qed.
Lemma add_ints t a b : fty_ok t -> Z.abs a <= 2 ^ f_prec t -> Z.abs b <= 2 ^ f_prec t -> Z.abs (a + b) <= 2 ^ f_prec t ->
  fadd t (of_int t a) (of_int t b) = of_int t (a + b).
Proof. intros H HA HB HS. destruct (fty_prec t H). rewrite !of_int_fint by auto. apply fadd_fint; auto. Qed.
Lemma sub_ints t a b : fty_ok t -> Z.abs a <= 2 ^ f_prec t -> Z.abs b <= 2 ^ f_prec t -> Z.abs (a - b) <= 2 ^ f_prec t ->
  fsub t (of_int t a) (of_int t b) = of_int t (a - b).
Proof. intros H HA HB HS. destruct (fty_prec t H). rewrite !of_int_fint by auto. apply fsub_fint; auto. Qed.

Lemma exactly_unique t a b x : fty_ok t -> exactly t a x -> exactly t b x -> a = b.
Proof.
  intros _ [_ H1] [_ H2]. destruct x as [s | s | | s m e]; cbn in H1, H2; try contradiction.
  - destruct H1, H2. congruence.
  - destruct H1 as (d & D1 & D2 & H1), H2 as (c & C1 & C2 & H2).
    assert (G : a * 2 ^ d * 2 ^ c = b * 2 ^ c * 2 ^ d).
    { rewrite <- H1, <- H2, <- !Z.mul_assoc, <- !Z.pow_add_r by lia. f_equal. f_equal. lia. }
    assert (P1 : 0 < 2 ^ d) by (apply Z.pow_pos_nonneg; lia). assert (P2 : 0 < 2 ^ c) by (apply Z.pow_pos_nonneg; lia).
    rewrite <- !Z.mul_assoc, (Z.mul_comm (2 ^ c)) in G. apply Z.mul_reg_r in G; [exact G | nia].
Qed.

(** One operator. *)
Lemma fapply_exact t x a o : fty_ok t -> fis_rmw o -> Z.abs (fincrement o) <= 2 ^ f_prec t ->
  Z.abs a <= 2 ^ f_prec t -> Z.abs (a + fincrement o) <= 2 ^ f_prec t -> x = of_int t a ->
  fapply t x o = of_int t (a + fincrement o).
Proof.
  intros H HR HN HA HS ->. pose proof (pow_prec t H).
  destruct o as [v | n | n | | | |]; cbn [fincrement fis_rmw] in *; try contradiction; cbn [fapply].
  - apply add_ints; auto.
  - replace (a + - n) with (a - n) by lia. apply sub_ints; auto; lia.
  - apply add_ints; auto.
  - replace (a + -1) with (a - 1) by lia. apply sub_ints; auto; lia.
  - apply add_ints; auto.
  - replace (a + -1) with (a - 1) by lia. apply sub_ints; auto; lia.
Qed.

(** The stores to the observeds. *)
Lemma fmirror obs p : forall m a, fold_left (fun m a => fset m a p) obs m a = if in_dec Pos.eq_dec a obs then p else m a.
Proof.
  induction obs as [| o obs IH]; intros m a; cbn [fold_left]; [reflexivity |]. rewrite IH.
  destruct (in_dec Pos.eq_dec a obs) as [H | H].
  - destruct (in_dec Pos.eq_dec a (o :: obs)) as [_ | H1]; [reflexivity |]. destruct H1. right. exact H.
  - unfold fset. destruct (Pos.eqb_spec a o) as [-> | HN].
    + destruct (in_dec Pos.eq_dec o (o :: obs)) as [_ | H1]; [reflexivity |]. destruct H1. left. reflexivity.
    + destruct (in_dec Pos.eq_dec a (o :: obs)) as [[H1 | H1] | H1]; [congruence | contradiction | reflexivity].
Qed.

(** Counting. *)
Lemma top_stays t : fty_ok t -> fadd t (of_int t (2 ^ f_prec t)) (of_int t 1) = of_int t (2 ^ f_prec t).
Proof. intros [-> | ->]; vm_compute; reflexivity. Qed.
Lemma count_up t obs : fty_ok t -> forall n k w, 0 <= k <= 2 ^ f_prec t -> f_val w = of_int t k ->
  f_val (frun_all t obs w (repeat FPreInc n)) = of_int t (Z.min (k + Z.of_nat n) (2 ^ f_prec t)).
Proof.
  intros H. pose proof (pow_prec t H). induction n as [| n IH]; intros k w HK HV; cbn [repeat frun_all].
  - rewrite HV. f_equal. lia.
  - destruct (Z.eq_dec k (2 ^ f_prec t)) as [-> | HN].
    + rewrite (IH (2 ^ f_prec t)); [f_equal; lia | lia |]. cbn [frun fst f_val fapply]. rewrite HV. apply top_stays. exact H.
    + rewrite (IH (k + 1)); [f_equal; lia | lia |]. cbn [frun fst f_val fapply]. rewrite HV. apply add_ints; auto; lia.
Qed.

(** Threads. *)
Definition absum (l : list fop) : Z := sum (map (fun o => Z.abs (fincrement o)) l).
Lemma absum_bound l : 0 <= absum l /\ Z.abs (fincrements l) <= absum l.
Proof. unfold absum, fincrements. induction l as [| o l IH]; cbn [map sum]; lia. Qed.
Definition total (f : list fop -> Z) (progs : list (list fop)) : Z := sum (map f progs).

Lemma total_put f progs i o p : nth_error progs i = Some (o :: p) ->
  total f (fput progs i p) = total f progs - f (o :: p) + f p.
Proof.
  revert i. induction progs as [| q progs IH]; intros i H; destruct i as [| i]; try discriminate; cbn in *.
  - injection H as ->. unfold total. cbn. lia.
  - unfold total in *. cbn. rewrite (IH _ H). lia.
Qed.
Lemma put_rmw (P : fop -> Prop) progs i o p : nth_error progs i = Some (o :: p) ->
  Forall (Forall P) progs -> P o /\ Forall (Forall P) (fput progs i p).
Proof.
  revert i. induction progs as [| q progs IH]; intros i H HF; destruct i as [| i]; try discriminate; cbn in *; inversion HF as [| ? ? H1 H2]; subst.
  - injection H as ->. inversion H1; subst. auto.
  - destruct (IH _ H H2). auto.
Qed.
Lemma in_total progs i o p : nth_error progs i = Some (o :: p) -> Z.abs (fincrement o) <= total absum progs.
Proof.
  revert i. induction progs as [| q progs IH]; intros i H; destruct i as [| i]; try discriminate; cbn in *; unfold total in *; cbn [map sum].
  - injection H as ->. assert (0 <= sum (map absum progs)).
    { clear. induction progs as [| q l IH]; cbn [map sum]; [lia |]. pose proof (absum_bound q). lia. }
    change (absum (o :: p)) with (Z.abs (fincrement o) + absum p). pose proof (absum_bound p). lia.
  - specialize (IH _ H). pose proof (absum_bound q). lia.
Qed.

Lemma fsched_exact t : fty_ok t -> forall s x progs a, x = of_int t a -> Forall (Forall fis_rmw) progs ->
  Z.abs a + total absum progs <= 2 ^ f_prec t ->
  exists b, fst (fsched t x progs s) = of_int t b /\ b + total fincrements (snd (fsched t x progs s)) = a + total fincrements progs /\
    Z.abs b <= 2 ^ f_prec t.
Proof.
  intros HT. induction s as [| i s IH]; intros x progs a HX HR HB; cbn [fsched].
  - exists a. assert (0 <= total absum progs).
    { unfold total. clear. induction progs as [| q l IH]; cbn [map sum]; [lia |]. pose proof (absum_bound q). lia. }
    cbn [fst snd]. split; [exact HX |]. split; lia.
  - destruct (nth_error progs i) as [[| o p] |] eqn:EN; [apply IH; auto | | apply IH; auto].
    pose proof (in_total _ _ _ _ EN) as HI. destruct (put_rmw _ _ _ _ _ EN HR) as [HO HR'].
    pose proof (total_put absum _ _ _ _ EN) as TA. pose proof (total_put fincrements _ _ _ _ EN) as TI.
    assert (EA : absum (o :: p) = Z.abs (fincrement o) + absum p) by reflexivity.
    assert (EI : fincrements (o :: p) = fincrement o + fincrements p) by reflexivity.
    destruct (IH (fapply t x o) (fput progs i p) (a + fincrement o)) as (b & H1 & H2 & H3).
    + apply fapply_exact; auto; lia.
    + exact HR'.
    + lia.
    + exists b. split; [exact H1 |]. split; [lia | exact H3].
Qed.

(** ** operands *)
Lemma int_ok : ity_ok int_ty.
Proof. right. right. left. reflexivity. Qed.
Lemma conv_int t z : ity_ok t -> i_bits t <= 32 -> forall x, conv t (x + conv int_ty z) = conv t (x + z) /\ conv t (x - conv int_ty z) = conv t (x - z).
Proof.
  intros H HB x. destruct (conv_diff int_ty z int_ok) as [k ->].
  assert (HM : exists m, 2 ^ i_bits int_ty = m * 2 ^ i_bits t).
  { exists (2 ^ (32 - i_bits t)). cbn [int_ty i_bits]. rewrite <- Z.pow_add_r; [f_equal; lia | lia |]. destruct H as [-> | [-> | [-> | ->]]]; lia. }
  destruct HM as [m ->]. split.
  - replace (x + (z + k * (m * 2 ^ i_bits t))) with (x + z + (k * m) * 2 ^ i_bits t) by lia. apply conv_shift. exact H.
  - replace (x - (z + k * (m * 2 ^ i_bits t))) with (x - z + (- k * m) * 2 ^ i_bits t) by lia. apply conv_shift. exact H.
Qed.
(** For a 64-bit type. *)
Lemma conv_int64 t z : ity_ok t -> i_bits t = 64 -> in_ity t z -> forall x,
  (conv t (x + conv int_ty z) = conv t (x + z) <-> (- 2 ^ 31 <= z < 2 ^ 31) \/ 2 ^ 64 - 2 ^ 31 <= z) /\
  (conv t (x - conv int_ty z) = conv t (x - z) <-> (- 2 ^ 31 <= z < 2 ^ 31) \/ 2 ^ 64 - 2 ^ 31 <= z).
Proof.
  intros H HB HZ x.
  assert (HR : in_ity int_ty (conv int_ty z)) by (apply conv_range, int_ok).
  destruct (conv_diff int_ty z int_ok) as [k EK].
  assert (HZ2 : - 2 ^ 63 <= z <= 2 ^ 64 - 1). { unfold in_ity, lo, hi in HZ. rewrite HB in HZ. destruct (i_signed t); lia. }
  unfold in_ity, int_ty, lo, hi in HR. cbn [i_signed i_bits] in HR.
  assert (G : (exists j, conv int_ty z = z + j * 2 ^ 64) <-> (- 2 ^ 31 <= z < 2 ^ 31) \/ 2 ^ 64 - 2 ^ 31 <= z).
  { split.
    - intros [j EJ]. fold int_ty in HR. rewrite EJ in HR. lia.
    - intros HC. fold int_ty in HR. cbn [int_ty i_bits] in EK. exists (if 2 ^ 63 <=? z then -1 else 0).
      destruct (Z.leb_spec (2 ^ 63) z); destruct HC; lia. }
  rewrite <- G. fold int_ty in HR. split; split.
  - intros E. apply conv_eq in E; [| exact H]. destruct E as [j E]. rewrite HB in E. exists j. lia.
  - intros [j ->]. replace (x + (z + j * 2 ^ 64)) with (x + z + j * 2 ^ i_bits t) by (rewrite HB; lia). apply conv_shift. exact H.
  - intros E. apply conv_eq in E; [| exact H]. destruct E as [j E]. rewrite HB in E. exists (- j). lia.
  - intros [j ->]. replace (x - (z + j * 2 ^ 64)) with (x - z + (- j) * 2 ^ i_bits t) by (rewrite HB; lia). apply conv_shift. exact H.
Qed.

Lemma vplus_value t Max upd disc f w a w' r n : ity_ok t -> vreaches t Max upd disc w -> passive upd -> passive_disc disc ->
  to_int a = Ok n -> vplus t Max upd disc f w a = Ok (w', r) -> value w' = conv t (value w + n).
Proof.
  intros T R P1 P2 HN E. unfold vplus in E. rewrite HN in E. cbn [bind] in E.
  destruct (passive_run t Max upd disc P1 P2 f w (VOp (AddEq n)) w' r (vreach_inv t Max T upd disc w R) E) as (_ & _ & HV & _).
  unfold value. rewrite HV, apply_math by exact T. reflexivity.
Qed.
Lemma vminus_value t Max upd disc f w a w' r n : ity_ok t -> vreaches t Max upd disc w -> passive upd -> passive_disc disc ->
  to_int a = Ok n -> vminus t Max upd disc f w a = Ok (w', r) -> value w' = conv t (value w - n).
Proof.
  intros T R P1 P2 HN E. unfold vminus in E. rewrite HN in E. cbn [bind] in E.
  destruct (passive_run t Max upd disc P1 P2 f w (VOp (SubEq n)) w' r (vreach_inv t Max T upd disc w R) E) as (_ & _ & HV & _).
  unfold value. rewrite HV, apply_math by exact T. reflexivity.
Qed.
