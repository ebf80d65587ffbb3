(** Properties C131 and C132: operands that are not ints, and floating-point values. *)
From Verif Require Import FValSpec FValProofs2 FValProofs3 ValuesProofs1.

Definition s64 : ity := {| i_bits := 64; i_signed := true |}.
Definition u64 : ity := {| i_bits := 64; i_signed := false |}.
Definition still_upd (log : list vev) (o : addr) (n : Z) : vbody := VReturn.
Definition still_disc (log : list vev) (o : addr) : vbody := VReturn.
(** The value after [x = v; x += a]. *)
Definition after_plus (t : ity) (v : Z) (a : operand) : option Z :=
  match vrun_all t 3 still_upd still_disc 9 (vfresh 3 (fun _ => 0)) [VAdd 7; VOp (Assign v)] with
  | Ok w => match vplus t 3 still_upd still_disc 9 w a with Ok (w', _) => Some (value w') | _ => None end
  | _ => None
  end.
(** The halves 5 * 2^-1 and -(7 * 2^-1), and 2^40. *)
Definition two_and_half : spec_float := S754_finite false 5 (-1).
Definition minus_three_and_half : spec_float := S754_finite true 7 (-1).
Definition huge : spec_float := S754_finite false 1 40.

(** ** C131 *)
(** Types of up to 32 bits: the operand may be any integer, of any type. *)
Theorem C131_narrow : forall t Max upd disc f w z w' r,
  ity_ok t -> i_bits t <= 32 -> vreaches t Max upd disc w -> passive upd -> passive_disc disc ->
  (vplus t Max upd disc f w (OInt z) = Ok (w', r) -> value w' = conv t (value w + z)) /\
  (vminus t Max upd disc f w (OInt z) = Ok (w', r) -> value w' = conv t (value w - z)).
Proof.
  intros t Max upd disc f w z w' r T B R P1 P2. destruct (conv_int t z T B (value w)) as [H1 H2]. split; intros E.
  - rewrite <- H1. exact (vplus_value t Max upd disc f w (OInt z) w' r _ T R P1 P2 eq_refl E).
  - rewrite <- H2. exact (vminus_value t Max upd disc f w (OInt z) w' r _ T R P1 P2 eq_refl E).
Qed.

Example C131_narrow_ex :
  after_plus {| i_bits := 8; i_signed := false |} 5 (OInt (2 ^ 40 + 3)) = Some 8 /\
  after_plus {| i_bits := 32; i_signed := false |} 5 (OInt 4294967295) = Some 4.
Proof. vm_compute. auto. Qed.

(** A 64-bit type: an operand of that same type is added correctly exactly when it is an int,
    or when it is one after wrapping around (the top 2^31 values of an unsigned type). *)
Theorem C131_wide : forall t Max upd disc f w z w' r,
  ity_ok t -> i_bits t = 64 -> in_ity t z -> vreaches t Max upd disc w -> passive upd -> passive_disc disc ->
  (vplus t Max upd disc f w (OInt z) = Ok (w', r) ->
   (value w' = conv t (value w + z) <-> (- 2 ^ 31 <= z < 2 ^ 31) \/ 2 ^ 64 - 2 ^ 31 <= z) /\
   exists k, value w' = conv t (value w + z + k * 2 ^ 32)) /\
  (vminus t Max upd disc f w (OInt z) = Ok (w', r) ->
   (value w' = conv t (value w - z) <-> (- 2 ^ 31 <= z < 2 ^ 31) \/ 2 ^ 64 - 2 ^ 31 <= z) /\
   exists k, value w' = conv t (value w - z + k * 2 ^ 32)).
Proof.
  intros t Max upd disc f w z w' r T B Z R P1 P2. destruct (conv_int64 t z T B Z (value w)) as [H1 H2].
  destruct (conv_diff int_ty z int_ok) as [k EK]. cbn [int_ty i_bits] in EK. fold int_ty in EK. split; intros E.
  - rewrite (vplus_value t Max upd disc f w (OInt z) w' r _ T R P1 P2 eq_refl E). fold int_ty. split; [exact H1 |].
    exists k. rewrite EK. f_equal. lia.
  - rewrite (vminus_value t Max upd disc f w (OInt z) w' r _ T R P1 P2 eq_refl E). fold int_ty. split; [exact H2 |].
    exists (- k). rewrite EK. f_equal. lia.
Qed.

(** A counter of bytes in 64 bits, and a block of three billion. *)
Example C131_wide_ex :
  after_plus s64 0 (OInt 3000000000) = Some (-1294967296) /\
  after_plus u64 0 (OInt 4294967296) = Some 0 /\
  after_plus s64 7 (OInt 2147483647) = Some 2147483654 /\
  after_plus u64 7 (OInt (2 ^ 64 - 1)) = Some 6.
Proof. vm_compute. auto. Qed.

(** A double: the fraction is dropped, and when what remains is no int the call is undefined. *)
Theorem C131_double : forall t Max upd disc f w d,
  (forall n, in_ity int_ty n -> drops_to d n ->
    vplus t Max upd disc f w (ODouble d) = vplus t Max upd disc f w (OInt n) /\
    vminus t Max upd disc f w (ODouble d) = vminus t Max upd disc f w (OInt n)) /\
  ((forall n, in_ity int_ty n -> ~ drops_to d n) ->
    vplus t Max upd disc f w (ODouble d) = UB /\ vminus t Max upd disc f w (ODouble d) = UB).
Proof.
  intros t Max upd disc f w d. destruct (to_int_double d) as [H1 H2]. unfold vplus, vminus. split.
  - intros n HN HD. rewrite (H1 n HN HD), (to_int_int n HN). auto.
  - intros H. rewrite (H2 H). auto.
Qed.

Example C131_double_ex :
  drops_to two_and_half 2 /\ after_plus s64 10 (ODouble two_and_half) = Some 12 /\
  drops_to minus_three_and_half (-3) /\ after_plus s64 10 (ODouble minus_three_and_half) = Some 7 /\
  after_plus s64 10 (ODouble huge) = None /\ (forall n, in_ity int_ty n -> ~ drops_to huge n).
Proof.
  split; [| split; [| split; [| split; [| split]]]].
  - split; [| lia]. exists 1. lia.
  - vm_compute. reflexivity.
  - split; [| lia]. exists 1. lia.
  - vm_compute. reflexivity.
  - vm_compute. reflexivity.
  - intros n H [(k & K1 & K2 & [_ K3]) _]. unfold in_ity, int_ty, lo, hi in H. cbn [i_signed i_bits] in H.
    rewrite Z.pow_add_r in K3 by lia. assert (0 < 2 ^ k) by (apply Z.pow_pos_nonneg; lia). nia.
Qed.

(** ** C132 *)
(** What =, +=, -= and ++x publish is the new value, bit for bit, whatever is rounded. *)
Theorem C132_publish : forall t obs w o w' r,
  ffaithful o = true -> frun t obs w o = (w', r) ->
  r = f_val w' /\ (forall a, In a obs -> f_mirror w' a = f_val w') /\ (forall a, ~ In a obs -> f_mirror w' a = f_mirror w a).
Proof.
  intros t obs w o w' r HF E. unfold frun in E. injection E as <- <-. cbn [f_val f_mirror].
  assert (EQ : fpublished t (f_val w) o = fapply t (f_val w) o) by (destruct o; cbn in HF; try discriminate; reflexivity).
  split; [exact EQ |]. split; intros a HA; rewrite fmirror; destruct (in_dec Pos.eq_dec a obs); try contradiction; auto.
Qed.

(** Integers of at most [f_prec] bits (2^53 for double, 2^24 for float) are exact. *)
Theorem C132_exact : forall t obs w o a,
  fty_ok t -> fis_rmw o -> exactly t a (f_val w) ->
  Z.abs a <= 2 ^ f_prec t -> Z.abs (fincrement o) <= 2 ^ f_prec t -> Z.abs (a + fincrement o) <= 2 ^ f_prec t ->
  exactly t (a + fincrement o) (f_val (fst (frun t obs w o))) /\
  (forall b, exactly t b (f_val (fst (frun t obs w o))) -> b = a + fincrement o).
Proof.
  intros t obs w o a T HR HX HA HN HS. cbn [frun fst f_val].
  rewrite (fapply_exact t (f_val w) a o T HR HN HA HS (exactly_of_int t a _ T HA HX)).
  split; [apply of_int_exactly; auto |]. intros b HB. exact (exactly_unique t _ _ _ T HB (of_int_exactly t _ T HS)).
Qed.

(** --x, x++ and x-- do not publish the new value here either. *)
Theorem C132_decrement : forall t obs w a,
  fty_ok t -> exactly t a (f_val w) -> Z.abs a < 2 ^ f_prec t ->
  (exactly t (a - 1) (f_val (fst (frun t obs w FPreDec))) /\ exactly t (a + 1) (snd (frun t obs w FPreDec)) /\
   (forall o, In o obs -> f_mirror (fst (frun t obs w FPreDec)) o = snd (frun t obs w FPreDec))) /\
  (exactly t (a + 1) (f_val (fst (frun t obs w FPostInc))) /\ exactly t a (snd (frun t obs w FPostInc)) /\
   (forall o, In o obs -> f_mirror (fst (frun t obs w FPostInc)) o = snd (frun t obs w FPostInc))) /\
  (exactly t (a - 1) (f_val (fst (frun t obs w FPostDec))) /\ exactly t a (snd (frun t obs w FPostDec)) /\
   (forall o, In o obs -> f_mirror (fst (frun t obs w FPostDec)) o = snd (frun t obs w FPostDec))).
Proof.
  intros t obs w a T HX HA. pose proof (pow_prec t T).
  assert (EX : f_val w = of_int t a) by (apply exactly_of_int; auto; lia).
  assert (EA : fadd t (of_int t a) (of_int t 1) = of_int t (a + 1)) by (apply add_ints; auto; lia).
  assert (ES : fsub t (of_int t a) (of_int t 1) = of_int t (a - 1)) by (apply sub_ints; auto; lia).
  assert (MI : forall o, (forall b, In b obs -> f_mirror (fst (frun t obs w o)) b = snd (frun t obs w o))).
  { intros o b HB. cbn [frun fst snd f_mirror]. rewrite fmirror. destruct (in_dec Pos.eq_dec b obs); [reflexivity | contradiction]. }
  split; [| split]; (split; [| split; [| apply MI]]); cbn [frun fst snd f_val fapply fpublished]; rewrite EX, ?EA, ?ES;
    apply of_int_exactly; auto; lia.
Qed.

Definition at_five : fworld := FW (of_int f64 5) (fun _ => S754_nan).
Example C132_exact_ex :
  exactly f64 5 (f_val at_five) /\
  f_val (fst (frun f64 [7%positive; 9%positive] at_five (FSubEq 8))) = of_int f64 (-3) /\
  snd (frun f64 [7%positive; 9%positive] at_five (FSubEq 8)) = of_int f64 (-3) /\
  f_mirror (fst (frun f64 [7%positive; 9%positive] at_five (FSubEq 8))) 9%positive = of_int f64 (-3) /\
  f_mirror (fst (frun f64 [7%positive; 9%positive] at_five (FSubEq 8))) 8%positive = S754_nan /\
  f_mirror (fst (frun f64 [7%positive] at_five FPreDec)) 7%positive = of_int f64 6 /\
  of_int f64 (-3) = S754_finite true 6755399441055744 (-51).
Proof.
  split; [apply of_int_exactly; [left; reflexivity | cbn; lia] | vm_compute; auto 10].
Qed.

(** Counting up from 0 by ++x stops at 2^24 or 2^53: the value is the count or that limit. *)
Theorem C132_counter : forall t obs w n,
  fty_ok t -> exactly t 0 (f_val w) ->
  exactly t (Z.min (Z.of_nat n) (2 ^ f_prec t)) (f_val (frun_all t obs w (repeat FPreInc n))).
Proof.
  intros t obs w n T HX. pose proof (pow_prec t T).
  rewrite (count_up t obs T n 0 w); [apply of_int_exactly; auto; lia | lia | apply exactly_of_int; auto; lia].
Qed.

Example C132_counter_ex :
  f_val (frun_all f32 [] (FW (of_int f32 0) (fun _ => S754_nan)) (repeat FPreInc 3)) = S754_finite false 12582912 (-22) /\
  f_val (fst (frun f32 [] (FW (of_int f32 16777216) (fun _ => S754_nan)) FPreInc)) = of_int f32 16777216.
Proof. vm_compute. auto. Qed.

(** Threads: as long as no partial sum can leave the exact range, nothing is lost, in any order. *)
Theorem C132_threads : forall t x progs s a,
  fty_ok t -> exactly t a x -> Forall (Forall fis_rmw) progs ->
  Z.abs a + sum (map (fun p => sum (map (fun o => Z.abs (fincrement o)) p)) progs) <= 2 ^ f_prec t ->
  Forall (fun p => p = []) (snd (fsched t x progs s)) ->
  exactly t (a + sum (map fincrements progs)) (fst (fsched t x progs s)).
Proof.
  intros t x progs s a T HX HR HB HD.
  assert (N : forall l, 0 <= sum (map (fun p => sum (map (fun o => Z.abs (fincrement o)) p)) l)).
  { induction l as [| p l IH]; cbn [map sum]; [lia |]. pose proof (absum_bound p). unfold absum in *. lia. }
  pose proof (N progs). assert (HX' : x = of_int t a) by (apply exactly_of_int; auto; lia).
  destruct (fsched_exact t T s x progs a HX' HR HB) as (b & H1 & H2 & H3).
  rewrite H1. replace (a + sum (map fincrements progs)) with b; [apply of_int_exactly; auto |].
  assert (Z0 : total fincrements (snd (fsched t x progs s)) = 0).
  { unfold total. clear - HD. induction HD as [| p l HP HL IH]; [reflexivity |]. cbn [map sum]. rewrite IH, HP. reflexivity. }
  unfold total in *. lia.
Qed.

Example C132_threads_ex :
  fsched f32 (of_int f32 10) [[FPreInc; FAddEq 5]; [FSubEq 30; FPostDec]] [1%nat; 0%nat; 1%nat; 0%nat] = (of_int f32 (-15), [[]; []]).
Proof. vm_compute. reflexivity. Qed.

(** Beyond it the order matters: at 2^24 or 2^53, one thread adding 1 and one taking 1 away end
    at the start or one below it. *)
Theorem C132_order : forall t, fty_ok t ->
  fst (fsched t (of_int t (2 ^ f_prec t)) [[FPreInc]; [FPreDec]] [1%nat; 0%nat]) = of_int t (2 ^ f_prec t) /\
  fst (fsched t (of_int t (2 ^ f_prec t)) [[FPreInc]; [FPreDec]] [0%nat; 1%nat]) = of_int t (2 ^ f_prec t - 1) /\
  of_int t (2 ^ f_prec t) <> of_int t (2 ^ f_prec t - 1).
Proof. intros t [-> | ->]; vm_compute; (split; [reflexivity | split; [reflexivity | discriminate]]). Qed.

(** x += d with d between -1 and 1 adds nothing (it only turns -0 into +0). *)
Theorem C132_fraction : forall t obs w d,
  drops_to d 0 -> exists w' r, fplus t obs w (ODouble d) = Ok (w', r) /\
    (f_val w' = f_val w \/ (f_val w = S754_zero true /\ f_val w' = S754_zero false)).
Proof.
  intros t obs w d HD. destruct (to_int_double d) as [H _]. unfold fplus. rewrite (H 0); [| unfold in_ity, int_ty, lo, hi; cbn; lia | exact HD].
  cbn [bind]. eexists. eexists. split; [reflexivity |]. cbn [frun f_val fapply]. apply fadd_zero.
Qed.

Example C132_fraction_ex :
  drops_to (S754_finite false 3 (-2)) 0 /\
  match fplus f64 [7%positive] at_five (ODouble (S754_finite false 3 (-2))) with Ok (w', _) => f_val w' = of_int f64 5 | _ => False end.
Proof. split; [| vm_compute; reflexivity]. split; [| lia]. exists 2. lia. Qed.

(** After NaN has been assigned, only another assignment helps. *)
Theorem C132_nan : forall t obs w l,
  f_val w = S754_nan -> Forall fis_rmw l -> f_val (frun_all t obs w l) = S754_nan.
Proof. intros t obs w l. apply nan_stays. Qed.

Example C132_nan_ex :
  f_val (frun_all f64 [] (FW S754_nan (fun _ => S754_nan)) [FAddEq 4; FPreDec]) = S754_nan /\
  f_val (frun_all f64 [] (FW S754_nan (fun _ => S754_nan)) [FAddEq 4; FAssign (of_int f64 1); FPreDec]) = of_int f64 0.
Proof. vm_compute. auto. Qed.

Print Assumptions C131_narrow.
Print Assumptions C131_wide.
Print Assumptions C131_double.
Print Assumptions C132_publish.
Print Assumptions C132_exact.
Print Assumptions C132_decrement.
Print Assumptions C132_counter.
Print Assumptions C132_threads.
Print Assumptions C132_order.
Print Assumptions C132_fraction.
Print Assumptions C132_nan.
