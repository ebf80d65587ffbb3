(** Properties C57-C62: data.hpp. *)
From Verif Require Import DataProofs.

(** C57. *)
Theorem C57_swap_reverses_bytes e w v : encode e (wbytes w) (swap e w v) = rev (encode e (wbytes w) v).
Proof.
  rewrite swap_decode, decode_encode; [reflexivity|rewrite rev_length; apply encode_len|].
  intros b Hb. apply in_rev in Hb. eapply encode_range, Hb.
Qed.
Theorem C57_swap_involutive e w v : fits w v -> swap e w (swap e w v) = v.
Proof.
  intros H. rewrite (swap_decode e w (swap e w v)), C57_swap_reverses_bytes, rev_involutive. apply encode_decode, H.
Qed.
Theorem C57_swap_fits e w v : fits w (swap e w v).
Proof.
  unfold fits. rewrite swap_decode.
  assert (LR : length (rev (encode e (wbytes w) v)) = wbytes w) by (rewrite rev_length; apply encode_len).
  pose proof (decode_range e (rev (encode e (wbytes w) v))) as DR. rewrite LR in DR. apply DR. intros b Hb. apply in_rev in Hb. eapply encode_range, Hb.
Qed.
Example C57_example : (swap Little W32 0x11223344, swap Big W16 0xABCD, swap Little W64b 1) = (0x44332211, 0xCDAB, 2 ^ 56).
Proof. reflexivity. Qed.

(** C58. *)
Theorem C58_lsb_get e w v old : fits w v -> lsb_get e w (lsb_make e w v) = v /\ lsb_get e w (lsb_assign e w old v) = v.
Proof.
  intros H. unfold lsb_get, lsb_make, lsb_assign. destruct (is_lsb e); [tauto|].
  rewrite C57_swap_involutive by exact H. tauto.
Qed.
Theorem C58_msb_get e w v old : fits w v -> msb_get e w (msb_make e w v) = v /\ msb_get e w (msb_assign e w old v) = v.
Proof.
  intros H. unfold msb_get, msb_make, msb_assign. destruct (is_lsb e); [|tauto].
  rewrite C57_swap_involutive by exact H. tauto.
Qed.
Theorem C58_default_is_zero e w : lsb_get e w lsb_default = 0 /\ msb_get e w msb_default = 0.
Proof. destruct e, w; vm_compute; split; reflexivity. Qed.
Example C58_example : msb_get Little W32 (msb_make Little W32 0xDEADBEEF) = 0xDEADBEEF /\ fits W32 0xDEADBEEF.
Proof. split; [reflexivity|unfold fits; cbn; lia]. Qed.

(** C59.  Byte [i] of the object is the byte of weight 256^i (lsb_t), 256^(n-1-i) (msb_t). *)
Theorem C59_little_endian_wire w v i :
  fits w v -> (i < wbytes w)%nat ->
  nth i (memory_bytes Little w (lsb_make Little w v)) 0 = (v / 256 ^ Z.of_nat i) mod 256 /\
  nth i (memory_bytes Little w (msb_make Little w v)) 0 = (v / 256 ^ Z.of_nat (wbytes w - 1 - i)) mod 256.
Proof.
  intros H Hi.
  assert (NB : forall n x j, (j < n)%nat -> nth j (le_bytes n x) 0 = (x / 256 ^ Z.of_nat j) mod 256).
  { induction n as [|n IH]; intros x j Hj; [lia|]. destruct j as [|j]; cbn [le_bytes nth].
    - cbn. rewrite Z.div_1_r. reflexivity.
    - rewrite IH by lia. rewrite Nat2Z.inj_succ, Z.pow_succ_r, Z.div_div by lia. reflexivity. }
  unfold memory_bytes. split.
  - unfold lsb_make. cbn [is_lsb]. change (is_lsb Little) with true. cbn [encode]. apply NB, Hi.
  - unfold msb_make. change (is_lsb Little) with true. cbv iota. rewrite C57_swap_reverses_bytes. cbn [encode].
    rewrite rev_nth by (rewrite le_bytes_length; exact Hi). rewrite le_bytes_length, NB by lia.
    replace (wbytes w - S i)%nat with (wbytes w - 1 - i)%nat by lia. reflexivity.
Qed.
Example C59_example :
  memory_bytes Little W32 (lsb_make Little W32 0x11223344) = [0x44; 0x33; 0x22; 0x11] /\
  memory_bytes Little W32 (msb_make Little W32 0x11223344) = [0x11; 0x22; 0x33; 0x44].
Proof. split; reflexivity. Qed.

(** C60.  On a big-endian host the two formats are exchanged, because the test for the host's
    byte order answers "little" everywhere. *)
Theorem C60_host_test_constant e : is_lsb e = true.
Proof. reflexivity. Qed.
Theorem C60_every_host_refuted w v :
  fits w v ->
  memory_bytes Big w (lsb_make Big w v) = memory_bytes Little w (msb_make Little w v) /\
  memory_bytes Big w (msb_make Big w v) = memory_bytes Little w (lsb_make Little w v).
Proof.
  intros H. unfold memory_bytes, lsb_make, msb_make. change (is_lsb Big) with true. change (is_lsb Little) with true.
  cbv iota. rewrite !C57_swap_reverses_bytes. cbn [encode]. rewrite rev_involutive. split; reflexivity.
Qed.
(** The formats differ unless the bytes of the number are a palindrome. *)
Example C60_example :
  memory_bytes Big W16 (lsb_make Big W16 0x1234) = [0x12; 0x34] /\
  memory_bytes Little W16 (lsb_make Little W16 0x1234) = [0x34; 0x12].
Proof. split; reflexivity. Qed.

(** C61. *)
Theorem C61_lsb_comparisons e w a b : fits w a -> fits w b ->
  let x := lsb_make e w a in let y := lsb_make e w b in
  (lsb_eq e w x y = true <-> a = b) /\ (lsb_lt e w x y = true <-> a < b) /\ (lsb_gt e w x y = true <-> a > b) /\
  (lsb_le e w x y = true <-> a <= b) /\ (lsb_ge e w x y = true <-> a >= b).
Proof.
  intros Ha Hb x y. unfold lsb_eq, lsb_lt, lsb_gt, lsb_le, lsb_ge. subst x y.
  rewrite (proj1 (C58_lsb_get e w a 0 Ha)), (proj1 (C58_lsb_get e w b 0 Hb)). lia.
Qed.
Theorem C61_msb_comparisons e w a b : fits w a -> fits w b ->
  let x := msb_make e w a in let y := msb_make e w b in
  (msb_eq e w x y = true <-> a = b) /\ (msb_lt e w x y = true <-> a < b) /\ (msb_gt e w x y = true <-> a > b) /\
  (msb_le e w x y = true <-> a <= b) /\ (msb_ge e w x y = true <-> a >= b).
Proof.
  intros Ha Hb x y. unfold msb_eq, msb_lt, msb_gt, msb_le, msb_ge. subst x y.
  rewrite (proj1 (C58_msb_get e w a 0 Ha)), (proj1 (C58_msb_get e w b 0 Hb)). lia.
Qed.
Example C61_example :
  msb_lt Little W16 (msb_make Little W16 0x00FF) (msb_make Little W16 0x0100) = true /\
  (msb_make Little W16 0x00FF <? msb_make Little W16 0x0100) = false.
Proof. split; reflexivity. Qed.

(** C62.  The bytes after the object are not looked at, fewer bytes are not enough. *)
Theorem C62_round_trip {T} (L : layout T) x rest :
  length (data_serialize L x) = l_size L /\ data_deserialize L (data_serialize L x ++ rest) = Ok x.
Proof.
  split; [apply l_len|]. unfold data_deserialize, data_serialize, read_bytes. rewrite app_length, l_len.
  destruct (Nat.ltb_spec (l_size L + length rest) (l_size L)); [lia|]. cbn [bind].
  rewrite firstn_app, l_len, Nat.sub_diag. cbn [firstn]. rewrite app_nil_r, <- (l_len L x), firstn_all, l_of_to. reflexivity.
Qed.
Theorem C62_reads_exactly {T} (L : layout T) src :
  ((length src < l_size L)%nat -> data_deserialize L src = UB) /\
  ((l_size L <= length src)%nat ->
     (exists x, data_deserialize L src = Ok x) /\
     forall rest, data_deserialize L (firstn (l_size L) src ++ rest) = data_deserialize L src).
Proof.
  unfold data_deserialize, read_bytes. split; intros H.
  - destruct (Nat.ltb_spec (length src) (l_size L)); [reflexivity|lia].
  - destruct (Nat.ltb_spec (length src) (l_size L)); [lia|]. split; [eexists; reflexivity|]. intros rest.
    assert (LF : length (firstn (l_size L) src) = l_size L) by (rewrite firstn_length; lia).
    rewrite app_length, LF. destruct (Nat.ltb_spec (l_size L + length rest) (l_size L)); [lia|].
    cbn [bind]. rewrite firstn_app, LF, Nat.sub_diag. cbn [firstn]. rewrite app_nil_r, firstn_firstn, Nat.min_id. reflexivity.
Qed.
(** Writing into a buffer puts exactly those bytes at its front and leaves the rest. *)
Theorem C62_serialize_into {T} (L : layout T) x dst :
  (l_size L <= length dst)%nat ->
  exists dst', data_serialize_to L x dst = Ok dst' /\ length dst' = length dst /\
    data_deserialize L dst' = Ok x /\ skipn (l_size L) dst' = skipn (l_size L) dst.
Proof.
  intros H. unfold data_serialize_to, write_bytes. rewrite l_len.
  destruct (Nat.ltb_spec (length dst) (l_size L)); [lia|]. eexists. split; [reflexivity|].
  split; [rewrite app_length, skipn_length, l_len; lia|]. split; [exact (proj2 (C62_round_trip L x _))|].
  rewrite skipn_app, l_len, Nat.sub_diag. cbn [skipn]. rewrite <- (l_len L x) at 1. rewrite skipn_all. reflexivity.
Qed.
Example C62_example :
  exists L : layout (bool * bool), data_serialize L (true, false) = [1; 0] /\
    data_deserialize L [0; 1; 99] = Ok (false, true) /\ data_deserialize L [1] = UB.
Proof.
  set (b2 := fun b : bool => if b then 1 else 0).
  assert (H1 : forall p : bool * bool, length [b2 (fst p); b2 (snd p)] = 2%nat) by reflexivity.
  assert (H2 : forall (p : bool * bool) b, In b [b2 (fst p); b2 (snd p)] -> 0 <= b < 256).
  { intros [[] []] b [<-|[<-|[]]]; cbn; lia. }
  assert (H3 : forall p : bool * bool, (nth 0 [b2 (fst p); b2 (snd p)] 0 =? 1, nth 1 [b2 (fst p); b2 (snd p)] 0 =? 1) = p).
  { intros [[] []]; reflexivity. }
  exists (Layout _ 2 (fun p => [b2 (fst p); b2 (snd p)]) (fun l => (nth 0 l 0 =? 1, nth 1 l 0 =? 1)) H1 H2 H3).
  repeat split; reflexivity.
Qed.

(** C86.  Receiving: the value of a field is the number its bytes spell. *)
Theorem C86_received_value w bs :
  length bs = wbytes w -> (forall b, In b bs -> 0 <= b < 256) ->
  lsb_get Little w (object_of_bytes Little bs) = little_endian bs /\
  msb_get Little w (object_of_bytes Little bs) = big_endian bs.
Proof.
  intros L R. unfold lsb_get, msb_get, object_of_bytes. change (is_lsb Little) with true. cbv iota.
  assert (LE : forall l, le_val l = little_endian l).
  { induction l as [|b l IH]; [reflexivity|]. cbn [le_val little_endian fold_right]. rewrite IH. reflexivity. }
  split; [apply LE|]. rewrite swap_decode, decode_encode by assumption. cbn [decode]. rewrite LE.
  unfold little_endian, big_endian. rewrite <- fold_left_rev_right.
  assert (X : forall l, fold_right (fun b acc => b + 256 * acc) 0 l = fold_right (fun y x => 256 * x + y) 0 l).
  { induction l as [|b l IH]; [reflexivity|]. cbn [fold_right]. rewrite IH. lia. }
  apply X.
Qed.
(** The received object is the object that would be built from that number. *)
Theorem C86_received_object w bs :
  length bs = wbytes w -> (forall b, In b bs -> 0 <= b < 256) ->
  object_of_bytes Little bs = lsb_make Little w (little_endian bs) /\
  object_of_bytes Little bs = msb_make Little w (big_endian bs) /\
  fits w (little_endian bs) /\ fits w (big_endian bs).
Proof.
  intros L R. destruct (C86_received_value w bs L R) as [A B].
  assert (FB : fits w (object_of_bytes Little bs)) by (unfold fits; rewrite <- L; apply decode_range, R).
  assert (A' : object_of_bytes Little bs = little_endian bs) by (rewrite <- A; reflexivity).
  unfold lsb_get, msb_get, lsb_make, msb_make in *. change (is_lsb Little) with true in *. cbv iota in *.
  rewrite <- A', <- B. repeat split; try apply FB; try (apply C57_swap_fits).
  rewrite C57_swap_involutive by exact FB. reflexivity.
Qed.
Example C86_example :
  lsb_get Little W32 (object_of_bytes Little [0x44; 0x33; 0x22; 0x11]) = 0x11223344 /\
  msb_get Little W32 (object_of_bytes Little [0x44; 0x33; 0x22; 0x11]) = 0x44332211.
Proof. split; reflexivity. Qed.

Print Assumptions C57_swap_reverses_bytes.
Print Assumptions C57_swap_involutive.
Print Assumptions C57_swap_fits.
Print Assumptions C58_lsb_get.
Print Assumptions C58_msb_get.
Print Assumptions C58_default_is_zero.
Print Assumptions C59_little_endian_wire.
Print Assumptions C60_host_test_constant.
Print Assumptions C60_every_host_refuted.
Print Assumptions C61_lsb_comparisons.
Print Assumptions C61_msb_comparisons.
Print Assumptions C62_round_trip.
Print Assumptions C62_reads_exactly.
Print Assumptions C62_serialize_into.
Print Assumptions C86_received_value.
Print Assumptions C86_received_object.
