(** Properties C63-C70: packet.hpp. *)
From Verif Require Import PacketProofs PacketSpec.

(** C63. *)
Theorem C63_constructed_packet {H F C} (LH : layout H) (LF : layout F) (LC : layout C) calc crc_eqb h f :
  (forall x, crc_eqb x x = true) ->
  let p := packet_make LH LF LC calc h f in
  packet_to_array p = l_bytes LH h ++ l_bytes LF f ++ l_bytes LC (calc (l_bytes LH h ++ l_bytes LF f)) /\
  packet_valid LC calc crc_eqb p = true /\ packet_header LH p = h /\ packet_fields LH LF p = f.
Proof.
  intros R p. assert (E : p = l_bytes LH h ++ l_bytes LF f ++ l_bytes LC (calc (l_bytes LH h ++ l_bytes LF f))).
  { unfold p, packet_make, put_crc, covered. rewrite !app_length, repeat_length, !app_assoc.
    rewrite firstn_len_app by (rewrite app_length, !l_len; lia). reflexivity. }
  split; [exact E|]. rewrite E. split; [|split].
  - unfold packet_valid, packet_crc, covered. rewrite !app_assoc, !app_length, !l_len.
    rewrite skipn_len_app by (rewrite app_length, !l_len; lia). rewrite firstn_len_app by (rewrite app_length, !l_len; lia).
    rewrite l_of_to. apply R.
  - unfold packet_header. rewrite firstn_len_app by apply l_len. apply l_of_to.
  - unfold packet_fields. rewrite skipn_len_app by apply l_len. rewrite firstn_len_app by apply l_len. apply l_of_to.
Qed.
(** Rebuilding from the bytes (followed by anything) gives the packet back; so does writing it
    into a buffer and reading the buffer. *)
Theorem C63_rebuilt_packet {H F C} (LH : layout H) (LF : layout F) (LC : layout C) calc h f rest dst :
  let p := packet_make LH LF LC calc h f in
  packet_of_array (packet_to_array p) = p /\
  packet_of_iter LH LF LC (packet_to_array p ++ rest) = Ok p /\
  packet_deserialize LH LF LC (packet_to_array p ++ rest) = Ok p /\
  ((l_size LH + l_size LF + l_size LC <= length dst)%nat ->
   exists dst', packet_serialize_to p dst = Ok dst' /\ length dst' = length dst /\
     packet_deserialize LH LF LC dst' = Ok p /\
     skipn (l_size LH + l_size LF + l_size LC) dst' = skipn (l_size LH + l_size LF + l_size LC) dst).
Proof.
  intros p.
  assert (LP : length p = (l_size LH + l_size LF + l_size LC)%nat).
  { unfold p, packet_make, put_crc, covered. rewrite !app_length, firstn_length, !app_length, repeat_length, !l_len. lia. }
  assert (RB : forall r, read_bytes (plen H F C LH LF LC) (p ++ r) = Ok p).
  { intros r. unfold read_bytes, plen. rewrite app_length, LP.
    destruct (Nat.ltb_spec (l_size LH + l_size LF + l_size LC + length r) (l_size LH + l_size LF + l_size LC)); [lia|].
    rewrite firstn_len_app by exact LP. reflexivity. }
  split; [reflexivity|]. split; [apply RB|]. split; [apply RB|]. intros LD.
  unfold packet_serialize_to, write_bytes. destruct (Nat.ltb_spec (length dst) (length p)); [lia|].
  eexists. split; [reflexivity|]. split; [rewrite app_length, skipn_length; lia|]. split; [apply RB|].
  rewrite skipn_len_app by exact LP. rewrite LP. reflexivity.
Qed.
Example C63_example :
  let p := packet_make char_layout char_layout char_layout sum_check "A"%char "B"%char in
  packet_to_array p = [65; 66; 131] /\ packet_valid char_layout sum_check Ascii.eqb p = true.
Proof. split; vm_compute; reflexivity. Qed.

(** C64. *)
Theorem C64_valid_iff {H F C} (LH : layout H) (LF : layout F) (LC : layout C) calc crc_eqb p :
  compares_equal crc_eqb -> unpadded LC -> octets p -> length p = (l_size LH + l_size LF + l_size LC)%nat ->
  let body := firstn (l_size LH + l_size LF) p in
  let tail := skipn (l_size LH + l_size LF) p in
  packet_valid LC calc crc_eqb p = true <-> tail = l_bytes LC (calc body).
Proof.
  intros EQ UP OC LP body tail. unfold packet_valid, packet_crc, covered. rewrite LP.
  replace (l_size LH + l_size LF + l_size LC - l_size LC)%nat with (l_size LH + l_size LF)%nat by lia.
  fold body. fold tail. rewrite (EQ _ _).
  assert (OT : octets tail).
  { intros b Hb. apply OC. rewrite <- (firstn_skipn (l_size LH + l_size LF) p). apply in_or_app. right. exact Hb. }
  assert (LT : length tail = l_size LC) by (unfold tail; rewrite skipn_length; lia).
  split; intros E.
  - rewrite <- E. symmetry. apply UP; assumption.
  - rewrite E. apply l_of_to.
Qed.
Theorem C64_corrupt_checksum {H F C} (LH : layout H) (LF : layout F) (LC : layout C) calc crc_eqb p q :
  compares_equal crc_eqb -> unpadded LC -> octets p -> octets q ->
  length p = (l_size LH + l_size LF + l_size LC)%nat -> length q = length p ->
  firstn (l_size LH + l_size LF) q = firstn (l_size LH + l_size LF) p -> q <> p ->
  packet_valid LC calc crc_eqb p = true -> packet_valid LC calc crc_eqb q = false.
Proof.
  intros EQ UP OP OQ LP LQ E NE VP. destruct (packet_valid LC calc crc_eqb q) eqn:VQ; [|reflexivity]. exfalso. apply NE.
  apply (C64_valid_iff LH LF LC) in VP; try assumption. apply (C64_valid_iff LH LF LC) in VQ; try assumption; [|congruence].
  rewrite <- (firstn_skipn (l_size LH + l_size LF) q), <- (firstn_skipn (l_size LH + l_size LF) p), E, VP, VQ, E. reflexivity.
Qed.
Example C64_example :
  compares_equal Ascii.eqb /\ unpadded char_layout /\
  map (packet_valid char_layout sum_check Ascii.eqb) [[65; 66; 131]; [65; 66; 130]; [65; 67; 131]; [66; 65; 131]]
  = [true; false; false; true].
Proof.
  split; [intros x y; apply Ascii.eqb_eq|]. split; [|vm_compute; reflexivity].
  intros b L O. destruct b as [|x [|y b]]; try discriminate. assert (0 <= x < 256) by (apply O; left; reflexivity).
  cbn [char_layout l_bytes l_value]. unfold char_bytes, char_value. cbn [hd]. rewrite N_ascii_embedding by lia.
  rewrite Z2N.id by lia. reflexivity.
Qed.

(** C65. *)
Theorem C65_static_serialize {H F C} (LH : layout H) (LF : layout F) (LC : layout C) calc h f :
  packet_serialize LH LF LC calc h f = packet_to_array (packet_make LH LF LC calc h f).
Proof.
  destruct (C63_constructed_packet LH LF LC calc (fun _ _ => true) h f (fun _ => eq_refl)) as (E & _). rewrite E. reflexivity.
Qed.
Example C65_example : packet_serialize char_layout char_layout char_layout sum_check "x"%char "y"%char = [120; 121; 241].
Proof. vm_compute. reflexivity. Qed.

(** C66. *)
Theorem C66_accessor_round_trip {H F C} (LH : layout H) (LF : layout F) (LC : layout C) calc crc_eqb tsize a h f n src a' :
  proper LH LF LC tsize a -> (forall x, crc_eqb x x = true) -> 0 <= n < W64 ->
  acc_serialize LH LF LC calc tsize a h f n (Some src) = Ok (a', true) ->
  exists r, acc_deserialize LH LF LC calc crc_eqb tsize a' = Ok r /\
    r_header r = Some h /\ r_fields r = Some f /\ r_valid r = true /\ r_size r = n /\
    exists at_, r_data r = Some at_ /\ slice (storage a') at_ (n * tsize) = slice src 0 (n * tsize) /\
      (0 < n -> n * tsize <= Z.of_nat (length src)).
Proof.
  intros (T & L & M) R N E.
  destruct (ser_true_fits LH LF LC calc tsize a h f n src a' T M ltac:(unfold fixed, hsize, fsize, csize, max_of; lia) ltac:(lia) E) as (FIT & LS).
  assert (HD : forall s, Some src = Some s -> 0 < n -> n * tsize <= Z.of_nat (length s)) by (intros s [= <-]; exact LS).
  rewrite (ser_fits LH LF LC calc crc_eqb tsize a h f n (Some src) T M ltac:(lia) FIT HD) in E. inversion E; subst a'; clear E.
  unfold max_of in *.
  destruct (framed_parts LH LF LC calc crc_eqb tsize (storage a) h f n (Some src) T ltac:(lia) FIT HD) as (A1 & A2 & A3 & _ & A5 & _).
  assert (FL := framed_len LH LF LC calc crc_eqb tsize (storage a) h f n (Some src) T ltac:(lia) FIT HD).
  set (s := framed LH LF LC calc tsize (storage a) h f n (Some src)) in *.
  assert (0 <= n * tsize) by (apply Z.mul_nonneg_nonneg; lia).
  eexists. split.
  { rewrite deser_ok; [|exact T|unfold max_of; cbn [storage]; lia|unfold max_of; cbn [storage size_]; lia].
    cbn [size_ storage].
    replace (fixed H F C LH LF LC + n * tsize - fixed H F C LH LF LC) with (n * tsize) by lia.
    rewrite Z.mod_mul by lia. cbn [Z.eqb negb]. reflexivity. }
  cbn [r_header r_fields r_valid r_size r_data size_ storage].
  split; [rewrite A1, l_of_to; reflexivity|]. split; [rewrite A2, l_of_to; reflexivity|].
  split.
  { replace (fixed H F C LH LF LC + n * tsize - csize C LC) with (hsize H LH + fsize F LF + n * tsize) by (unfold fixed; lia).
    rewrite A5, l_of_to. apply R. }
  split; [replace (fixed H F C LH LF LC + n * tsize - fixed H F C LH LF LC) with (n * tsize) by lia; apply Z.div_mul; lia|].
  eexists. split; [reflexivity|]. split; [|exact LS]. unfold slice. cbn [Z.to_nat skipn]. apply A3. reflexivity.
Qed.
(** An empty payload needs no data pointer. *)
Theorem C66_empty_payload {H F C} (LH : layout H) (LF : layout F) (LC : layout C) calc crc_eqb tsize a h f :
  proper LH LF LC tsize a -> (forall x, crc_eqb x x = true) ->
  exists a', acc_serialize LH LF LC calc tsize a h f 0 None = Ok (a', true) /\
  exists r, acc_deserialize LH LF LC calc crc_eqb tsize a' = Ok r /\
    r_header r = Some h /\ r_fields r = Some f /\ r_valid r = true /\ r_size r = 0.
Proof.
  intros P R. assert (E : acc_serialize LH LF LC calc tsize a h f 0 None = acc_serialize LH LF LC calc tsize a h f 0 (Some []))
    by reflexivity.
  rewrite E. pose proof P as (T & L & M).
  rewrite (ser_fits LH LF LC calc crc_eqb tsize a h f 0 (Some []) T M ltac:(lia)
             ltac:(unfold fixed, hsize, fsize, csize, max_of; lia) ltac:(lia)).
  eexists. split; [reflexivity|].
  edestruct (C66_accessor_round_trip LH LF LC calc crc_eqb tsize a h f 0 []) as (r & E1 & E2 & E3 & E4 & E5 & _).
  - exact P.
  - exact R.
  - unfold W64; lia.
  - apply (ser_fits LH LF LC calc crc_eqb tsize a h f 0 (Some []) T M ltac:(lia)
             ltac:(unfold fixed, hsize, fsize, csize, max_of; lia) ltac:(lia)).
  - exists r. tauto.
Qed.
Example C66_example :
  let a := accessor_new 10 in
  proper char_layout char_layout char_layout 2 a /\
  exists a', acc_serialize char_layout char_layout char_layout sum_check 2 a "H"%char "F"%char 2 (Some [1; 2; 3; 4; 5]) = Ok (a', true) /\
    storage a' = [72; 70; 1; 2; 3; 4; 152; 0; 0; 0] /\ size_ a' = 7.
Proof. cbv zeta. split; [vm_compute; intuition congruence|]. eexists. split; [vm_compute; reflexivity|]. split; vm_compute; reflexivity. Qed.

(** C67. *)
Theorem C67_true_iff_fits {H F C} (LH : layout H) (LF : layout F) (LC : layout C) calc tsize a h f n src :
  proper LH LF LC tsize a -> 0 <= n -> overhead LH LF LC + n * tsize < W64 -> n * tsize <= Z.of_nat (length src) ->
  exists a' ok, acc_serialize LH LF LC calc tsize a h f n (Some src) = Ok (a', ok) /\
    (ok = true <-> overhead LH LF LC + n * tsize <= Z.of_nat (length (storage a))) /\
    (ok = false -> a' = a) /\
    (ok = true -> size_ a' = overhead LH LF LC + n * tsize /\ length (storage a') = length (storage a) /\
       forall k, size_ a' <= Z.of_nat k -> nth k (storage a') 0 = nth k (storage a) 0).
Proof.
  intros (T & L & M) N NW LS.
  assert (EF : overhead LH LF LC = fixed H F C LH LF LC) by (unfold overhead, fixed, hsize, fsize, csize; lia).
  rewrite EF in *. pose proof (sizes_pos LH LF LC) as (P1 & P2 & P3 & P4).
  assert (0 <= n * tsize) by (apply Z.mul_nonneg_nonneg; lia).
  destruct (Z.le_gt_cases (fixed H F C LH LF LC + n * tsize) (max_of a)) as [FIT|FIT].
  - assert (HD : forall s, Some src = Some s -> 0 < n -> n * tsize <= Z.of_nat (length s)) by (intros s [= <-]; lia).
    rewrite (ser_fits LH LF LC calc (fun _ _ => true) tsize a h f n (Some src) T M N FIT HD).
    unfold max_of in *.
    destruct (framed_parts LH LF LC calc (fun _ _ => true) tsize (storage a) h f n (Some src) T N FIT HD) as (_ & _ & _ & _ & _ & A6).
    assert (FL := framed_len LH LF LC calc (fun _ _ => true) tsize (storage a) h f n (Some src) T N FIT HD).
    do 2 eexists. split; [reflexivity|]. split; [split; [intros _; exact FIT|reflexivity]|]. split; [discriminate|].
    intros _. cbn [size_ storage]. split; [reflexivity|]. split; [exact FL|]. intros k K.
    replace k with (Z.to_nat (fixed H F C LH LF LC + n * tsize) + (k - Z.to_nat (fixed H F C LH LF LC + n * tsize)))%nat by lia.
    rewrite <- !nth_skipn_add, A6. reflexivity.
  - unfold acc_serialize. rewrite (u64_id (n * tsize)) by lia. rewrite u64_id by lia.
    destruct (Z.ltb_spec (max_of a) (n * tsize + fixed H F C LH LF LC)) as [_|B]; [|lia].
    do 2 eexists. split; [reflexivity|]. unfold max_of in *. split; [split; [discriminate|lia]|]. split; [reflexivity|discriminate].
Qed.
Example C67_example :
  let a := accessor_new 10 in
  (exists a', acc_serialize char_layout char_layout char_layout sum_check 2 a "H"%char "F"%char 3 (Some [1;2;3;4;5;6]) = Ok (a', true)) /\
  acc_serialize char_layout char_layout char_layout sum_check 2 a "H"%char "F"%char 4 (Some [1;2;3;4;5;6;7;8]) = Ok (a, false).
Proof. cbv zeta. split; [eexists|]; vm_compute; reflexivity. Qed.

(** C68.  Counts whose total does not wrap are handled without touching memory outside the
    storage, whether or not there is data. *)
Theorem C68_safe_without_wrap {H F C} (LH : layout H) (LF : layout F) (LC : layout C) calc tsize a h f n data :
  proper LH LF LC tsize a -> 0 <= n -> overhead LH LF LC + n * tsize < W64 ->
  (forall src, data = Some src -> n * tsize <= Z.of_nat (length src)) ->
  exists a' ok, acc_serialize LH LF LC calc tsize a h f n data = Ok (a', ok) /\ length (storage a') = length (storage a).
Proof.
  intros (T & L & M) N NW LS.
  assert (EF : overhead LH LF LC = fixed H F C LH LF LC) by (unfold overhead, fixed, hsize, fsize, csize; lia).
  rewrite EF in *. pose proof (sizes_pos LH LF LC) as (P1 & P2 & P3 & P4).
  assert (0 <= n * tsize) by (apply Z.mul_nonneg_nonneg; lia).
  destruct (Z.le_gt_cases (fixed H F C LH LF LC + n * tsize) (max_of a)) as [FIT|FIT].
  - assert (HD : forall s, data = Some s -> 0 < n -> n * tsize <= Z.of_nat (length s)) by (intros s E _; apply LS, E).
    rewrite (ser_fits LH LF LC calc (fun _ _ => true) tsize a h f n data T M N FIT HD). do 2 eexists. split; [reflexivity|].
    cbn [storage]. apply framed_len; try assumption. exact (fun _ _ => true).
  - unfold acc_serialize. rewrite (u64_id (n * tsize)) by lia. rewrite u64_id by lia.
    destruct (Z.ltb_spec (max_of a) (n * tsize + fixed H F C LH LF LC)) as [_|B]; [|lia]. do 2 eexists. split; reflexivity.
Qed.
(** Every count that passes the size test only because the total wrapped is undefined behaviour
    when there is data to copy. *)
Theorem C68_wrap_refuted {H F C} (LH : layout H) (LF : layout F) (LC : layout C) calc tsize a h f n src :
  proper LH LF LC tsize a -> 0 <= n < W64 -> W64 <= overhead LH LF LC + n * tsize ->
  (overhead LH LF LC + n * tsize) mod W64 <= Z.of_nat (length (storage a)) ->
  acc_serialize LH LF LC calc tsize a h f n (Some src) = UB.
Proof.
  intros P N WR PASS. destruct P as (T & L & M).
  assert (EF : overhead LH LF LC = fixed H F C LH LF LC) by (unfold overhead, fixed, hsize, fsize, csize; lia).
  rewrite EF in *. pose proof (sizes_pos LH LF LC) as (P1 & P2 & P3 & P4).
  destruct (acc_serialize LH LF LC calc tsize a h f n (Some src)) as [[a' ok]| |] eqn:E; [|reflexivity|].
  - exfalso. destruct ok.
    + apply ser_true_fits in E; try assumption; [unfold max_of in *; lia|unfold fixed, hsize, fsize, csize, max_of; lia|lia].
    + unfold acc_serialize in E. unfold u64 in E at 1 2. rewrite Zplus_mod_idemp_l in E.
      destruct (Z.ltb_spec (max_of a) ((n * tsize + fixed H F C LH LF LC) mod W64)) as [B|B].
      * rewrite Z.add_comm in B. unfold max_of in B. lia.
      * repeat match type of E with bind ?x _ = _ => destruct x; cbn [bind] in E; try discriminate end.
  - exfalso. unfold acc_serialize, write_at, at_offset, write_bytes in E.
    repeat (match type of E with
            | context [if ?b then _ else _] => destruct b
            end; cbn [bind] in E; try discriminate).
Qed.
(** Such counts exist for every frame format (as soon as one element would fit in Max + 1 bytes). *)
Theorem C68_wrapping_counts_exist {H F C} (LH : layout H) (LF : layout F) (LC : layout C) tsize a :
  proper LH LF LC tsize a -> 0 < overhead LH LF LC -> tsize - 1 <= Z.of_nat (length (storage a)) ->
  exists n, 0 <= n < W64 /\ W64 <= overhead LH LF LC + n * tsize /\
    (overhead LH LF LC + n * tsize) mod W64 <= Z.of_nat (length (storage a)).
Proof.
  intros (T & L & M) OV TS. unfold overhead in *.
  set (o := Z.of_nat (l_size LH + l_size LF + l_size LC)) in *.
  set (m := Z.of_nat (length (storage a))) in *.
  (* the least count whose total reaches 2^64 *)
  set (n := (W64 - o + tsize - 1) / tsize).
  assert (D : W64 - o + tsize - 1 = tsize * n + (W64 - o + tsize - 1) mod tsize) by (apply Z.div_mod; lia).
  pose proof (Z.mod_pos_bound (W64 - o + tsize - 1) tsize T) as MB.
  assert (T2 : W64 <= o + n * tsize <= W64 + tsize - 1) by lia.
  exists n. split.
  - split; [apply Z.div_pos; lia|]. destruct (Z.eq_dec tsize 1) as [E1|E1]; [rewrite E1 in *; lia|].
    assert (2 * n <= tsize * n) by (apply Z.mul_le_mono_nonneg_r; [apply Z.div_pos; lia|lia]). lia.
  - split; [lia|]. replace (o + n * tsize) with (o + n * tsize - W64 + 1 * W64) by lia.
    rewrite Z.mod_add by (unfold W64; lia). rewrite Z.mod_small by lia. lia.
Qed.
(** Without data a wrapping product is accepted and announces a frame shorter than asked for. *)
Theorem C68_wrap_without_data {H F C} (LH : layout H) (LF : layout F) (LC : layout C) calc tsize a h f n :
  proper LH LF LC tsize a -> 0 <= n < W64 ->
  overhead LH LF LC + (n * tsize) mod W64 <= Z.of_nat (length (storage a)) ->
  exists a', acc_serialize LH LF LC calc tsize a h f n None = Ok (a', true) /\
    size_ a' = overhead LH LF LC + (n * tsize) mod W64 /\ length (storage a') = length (storage a).
Proof.
  intros (T & L & M) N FIT.
  assert (EF : overhead LH LF LC = fixed H F C LH LF LC) by (unfold overhead, fixed, hsize, fsize, csize; lia).
  rewrite EF in *. pose proof (sizes_pos LH LF LC) as (P1 & P2 & P3 & P4).
  assert (WP : 0 < W64) by (unfold W64; lia).
  pose proof (Z.mod_pos_bound (n * tsize) W64 WP) as MB.
  unfold acc_serialize. change (u64 (n * tsize)) with ((n * tsize) mod W64). set (t := (n * tsize) mod W64) in *.
  rewrite (u64_id (t + fixed H F C LH LF LC)) by lia.
  unfold max_of. destruct (Z.ltb_spec (Z.of_nat (length (storage a))) (t + fixed H F C LH LF LC)); [lia|].
  pose proof (len_h LH h) as E1. pose proof (len_f LF f) as E2.
  rewrite write_at_ok by lia. cbn [bind].
  assert (L1 : length (patch (storage a) 0 (l_bytes LH h)) = length (storage a)) by (apply patch_len; lia).
  rewrite write_at_ok by lia. cbn [bind].
  set (s2 := patch (patch (storage a) 0 (l_bytes LH h)) (hsize H LH) (l_bytes LF f)).
  assert (L2 : length s2 = length (storage a)) by (unfold s2; rewrite patch_len; lia).
  rewrite at_offset_ok by lia. cbn [bind]. rewrite write_at_ok by (rewrite ?len_c; lia). cbn [bind].
  eexists. split; [reflexivity|]. cbn [size_ storage]. split; [apply u64_id; lia|].
  rewrite patch_len; [exact L2|lia|rewrite len_c; lia].
Qed.
Example C68_example :
  let a := accessor_new 10 in
  acc_serialize char_layout char_layout char_layout sum_check 2 a "H"%char "F"%char (2 ^ 63) (Some [1; 2]) = UB /\
  exists a', acc_serialize char_layout char_layout char_layout sum_check 2 a "H"%char "F"%char (2 ^ 63) None = Ok (a', true) /\ size_ a' = 3.
Proof. cbv zeta. split; [vm_compute; reflexivity|]. eexists. split; [vm_compute; reflexivity|vm_compute; reflexivity]. Qed.

(** C69. *)
Theorem C69_sized_frames {H F C} (LH : layout H) (LF : layout F) (LC : layout C) calc crc_eqb tsize a :
  proper LH LF LC tsize a -> compares_equal crc_eqb ->
  overhead LH LF LC <= size_ a <= Z.of_nat (length (storage a)) ->
  exists r, acc_deserialize LH LF LC calc crc_eqb tsize a = Ok r /\
    ((forall k, size_ a <> overhead LH LF LC + k * tsize) ->
       r_valid r = false /\ r_header r = None /\ r_fields r = None /\ r_size r = 0 /\ r_data r = None) /\
    (forall k, size_ a = overhead LH LF LC + k * tsize ->
       r_size r = k /\ r_data r = Some (front LH LF) /\
       r_header r = Some (l_value LH (slice (storage a) 0 (Z.of_nat (l_size LH)))) /\
       r_fields r = Some (l_value LF (slice (storage a) (Z.of_nat (l_size LH)) (Z.of_nat (l_size LF)))) /\
       (r_valid r = true <->
        l_value LC (slice (storage a) (size_ a - Z.of_nat (l_size LC)) (Z.of_nat (l_size LC))) =
        calc (slice (storage a) 0 (size_ a - Z.of_nat (l_size LC))))).
Proof.
  intros (T & L & M) EQ SZ.
  assert (EF : overhead LH LF LC = fixed H F C LH LF LC) by (unfold overhead, fixed, hsize, fsize, csize; lia).
  rewrite EF in *. pose proof (sizes_pos LH LF LC) as (P1 & P2 & P3 & P4).
  rewrite deser_ok by (try assumption; unfold max_of; lia).
  set (x := size_ a - fixed H F C LH LF LC).
  assert (DM : x = tsize * (x / tsize) + x mod tsize) by (apply Z.div_mod; lia).
  destruct (Z.eqb_spec (x mod tsize) 0) as [D|D]; cbn [negb].
  - eexists. split; [reflexivity|]. cbn [r_valid r_header r_fields r_size r_data]. split.
    + intros NK. exfalso. apply (NK (x / tsize)). unfold x in *. lia.
    + intros k K. assert (XK : x = k * tsize) by (unfold x; lia).
      split; [rewrite XK; apply Z.div_mul; lia|]. split; [unfold front, hsize, fsize; f_equal; lia|].
      split; [reflexivity|]. split; [reflexivity|]. rewrite (EQ _ _). unfold slice, csize. rewrite Nat2Z.id. cbn [Z.to_nat skipn]. reflexivity.
  - eexists. split; [reflexivity|]. cbn [r_valid r_header r_fields r_size r_data]. split; [tauto|].
    intros k K. exfalso. apply D. replace x with (k * tsize) by (unfold x; lia). apply Z.mod_mul. lia.
Qed.
(** Only the announced bytes matter. *)
Theorem C69_reads_announced_bytes {H F C} (LH : layout H) (LF : layout F) (LC : layout C) calc crc_eqb tsize a b :
  proper LH LF LC tsize a -> overhead LH LF LC <= size_ a <= Z.of_nat (length (storage a)) ->
  size_ b = size_ a -> length (storage b) = length (storage a) ->
  slice (storage b) 0 (size_ a) = slice (storage a) 0 (size_ a) ->
  acc_deserialize LH LF LC calc crc_eqb tsize b = acc_deserialize LH LF LC calc crc_eqb tsize a.
Proof.
  intros (T & L & M) SZ ES EL EB.
  assert (EF : overhead LH LF LC = fixed H F C LH LF LC) by (unfold overhead, fixed, hsize, fsize, csize; lia).
  rewrite EF in *. pose proof (sizes_pos LH LF LC) as (P1 & P2 & P3 & P4).
  rewrite !deser_ok by (try assumption; unfold max_of; rewrite ?ES, ?EL; lia). rewrite ES.
  unfold slice in EB. cbn [Z.to_nat skipn] in EB.
  assert (SL : forall i c, (i + c <= Z.to_nat (size_ a))%nat -> firstn c (skipn i (storage b)) = firstn c (skipn i (storage a))).
  { intros i c IC. apply list_eq_nth; [rewrite !firstn_length, !skipn_length; lia|]. rewrite firstn_length, skipn_length. intros k K.
    rewrite !nth_firstn_lt, !nth_skipn_add by lia.
    rewrite <- (nth_firstn_lt (storage b) (Z.to_nat (size_ a))), EB, nth_firstn_lt by lia. reflexivity. }
  unfold hsize, fsize, csize in *.
  pose proof (SL 0%nat (Z.to_nat (Z.of_nat (l_size LH))) ltac:(lia)) as S1. cbn [skipn] in S1. rewrite S1.
  rewrite (SL (Z.to_nat (Z.of_nat (l_size LH))) (Z.to_nat (Z.of_nat (l_size LF)))) by lia.
  rewrite (SL (Z.to_nat (size_ a - Z.of_nat (l_size LC))) (l_size LC)) by lia.
  pose proof (SL 0%nat (Z.to_nat (size_ a - Z.of_nat (l_size LC))) ltac:(lia)) as S4. cbn [skipn] in S4. rewrite S4. reflexivity.
Qed.
Example C69_example :
  map (fun n => match acc_deserialize char_layout char_layout char_layout sum_check Ascii.eqb 2
                        (set_size (Accessor [72; 70; 1; 2; 3; 4; 152; 0; 0; 0] 0) n) with
                | Ok r => (r_valid r, r_size r) | _ => (false, -1) end) [7; 6; 5; 9; 3]
  = [(true, 2); (false, 0); (false, 1); (false, 3); (false, 0)].
Proof. vm_compute. reflexivity. Qed.

(** C70.  Outside that range: (a) rejection when the wrapped difference is not a multiple;
    otherwise (b) undefined behaviour past the storage or below the checksum size, and
    (c) between the checksum size and the fixed length a count reaching far past the storage. *)
Theorem C70_bad_size_rejected {H F C} (LH : layout H) (LF : layout F) (LC : layout C) calc crc_eqb tsize a :
  ((size_ a - overhead LH LF LC) mod W64) mod tsize <> 0 ->
  exists r, acc_deserialize LH LF LC calc crc_eqb tsize a = Ok r /\ r_valid r = false /\ r_size r = 0 /\ r_data r = None.
Proof.
  intros D. assert (EF : overhead LH LF LC = fixed H F C LH LF LC) by (unfold overhead, fixed, hsize, fsize, csize; lia).
  rewrite EF in D. unfold acc_deserialize, u64. destruct (Z.eqb_spec (((size_ a - fixed H F C LH LF LC) mod W64) mod tsize) 0); [contradiction|].
  cbn [negb]. eexists. split; [reflexivity|]. auto.
Qed.
Theorem C70_out_of_bounds_refuted {H F C} (LH : layout H) (LF : layout F) (LC : layout C) calc crc_eqb tsize a :
  proper LH LF LC tsize a -> 0 <= size_ a < W64 ->
  ((size_ a - overhead LH LF LC) mod W64) mod tsize = 0 ->
  Z.of_nat (length (storage a)) < size_ a \/ size_ a < Z.of_nat (l_size LC) ->
  acc_deserialize LH LF LC calc crc_eqb tsize a = UB.
Proof.
  intros (T & L & M) SZ D B. assert (EF : overhead LH LF LC = fixed H F C LH LF LC) by (unfold overhead, fixed, hsize, fsize, csize; lia).
  rewrite EF in D. pose proof (sizes_pos LH LF LC) as (P1 & P2 & P3 & P4). unfold acc_deserialize, u64. rewrite D. cbn [Z.eqb negb].
  rewrite at_offset_ok by lia. cbn [bind]. unfold data_deserialize, read_bytes. cbn [Z.to_nat skipn].
  unfold hsize, fsize, csize in *.
  destruct (Nat.ltb_spec (length (storage a)) (l_size LH)); [lia|]. cbn [bind].
  rewrite at_offset_ok by lia. cbn [bind]. rewrite skipn_length.
  destruct (Nat.ltb_spec (length (storage a) - Z.to_nat (Z.of_nat (l_size LH))) (l_size LF)); [lia|]. cbn [bind].
  destruct B as [B|B].
  - rewrite at_offset_ub by lia. reflexivity.
  - rewrite at_offset_ok by lia. cbn [bind]. rewrite at_offset_ub by lia. reflexivity.
Qed.
Theorem C70_phantom_payload_refuted {H F C} (LH : layout H) (LF : layout F) (LC : layout C) calc crc_eqb tsize a :
  proper LH LF LC tsize a ->
  Z.of_nat (l_size LC) <= size_ a < overhead LH LF LC ->
  ((size_ a - overhead LH LF LC) mod W64) mod tsize = 0 ->
  exists r, acc_deserialize LH LF LC calc crc_eqb tsize a = Ok r /\
    r_data r = Some (front LH LF) /\ r_size r * tsize = W64 + size_ a - overhead LH LF LC /\
    Z.of_nat (length (storage a)) < front LH LF + r_size r * tsize.
Proof.
  intros (T & L & M) SZ D. assert (EF : overhead LH LF LC = fixed H F C LH LF LC) by (unfold overhead, fixed, hsize, fsize, csize; lia).
  rewrite EF in *. pose proof (sizes_pos LH LF LC) as (P1 & P2 & P3 & P4).
  assert (UM : (size_ a - fixed H F C LH LF LC) mod W64 = W64 + size_ a - fixed H F C LH LF LC).
  { replace (size_ a - fixed H F C LH LF LC) with (W64 + size_ a - fixed H F C LH LF LC + (-1) * W64) at 1 by lia.
    rewrite Z.mod_add by (unfold W64; lia). apply Z.mod_small. unfold max_of in *. unfold hsize, fsize, csize in *. lia. }
  unfold acc_deserialize, u64. rewrite D. cbn [Z.eqb negb].
  rewrite at_offset_ok by lia. cbn [bind]. unfold data_deserialize, read_bytes. cbn [Z.to_nat skipn].
  unfold hsize, fsize, csize in *.
  destruct (Nat.ltb_spec (length (storage a)) (l_size LH)); [lia|]. cbn [bind].
  rewrite at_offset_ok by lia. cbn [bind]. rewrite skipn_length.
  destruct (Nat.ltb_spec (length (storage a) - Z.to_nat (Z.of_nat (l_size LH))) (l_size LF)); [lia|]. cbn [bind].
  rewrite at_offset_ok by lia. cbn [bind]. rewrite at_offset_ok by lia. cbn [bind]. rewrite skipn_length.
  destruct (Nat.ltb_spec (length (storage a) - Z.to_nat (size_ a - Z.of_nat (l_size LC))) (l_size LC)); [lia|]. cbn [bind].
  eexists. split; [reflexivity|]. cbn [r_data r_size]. split; [unfold front; f_equal; lia|].
  rewrite UM in *.
  assert (E : W64 + size_ a - fixed H F C LH LF LC = tsize * ((W64 + size_ a - fixed H F C LH LF LC) / tsize) + 0).
  { rewrite <- D. apply Z.div_mod. lia. }
  split; [lia|]. unfold front. unfold fixed, hsize, fsize, csize in *. lia.
Qed.
Example C70_example :
  let d tsize n := acc_deserialize char_layout char_layout char_layout sum_check Ascii.eqb tsize
                 (set_size (Accessor [72; 70; 1; 2; 3; 4; 152; 0; 0; 0] 0) n) in
  d 1 11 = UB /\ d 1 0 = UB /\
  match d 1 2 with Ok r => r_size r = 2 ^ 64 - 1 | _ => False end /\
  match d 2 2 with Ok r => r_valid r = false /\ r_size r = 0 | _ => False end.
Proof. cbv zeta. split; [vm_compute; reflexivity|]. split; [vm_compute; reflexivity|]. split; vm_compute; auto. Qed.

(** C82. *)
Theorem C82_no_check_in_range {H F C} (LH : layout H) (LF : layout F) (LC : layout C) tsize a :
  proper LH LF LC tsize a -> overhead LH LF LC <= size_ a <= Z.of_nat (length (storage a)) ->
  exists count, acc_no_check LH LF LC tsize a = (0, Z.of_nat (l_size LH), count, front LH LF) /\
    0 <= count /\ front LH LF + count * tsize <= size_ a - Z.of_nat (l_size LC) < front LH LF + (count + 1) * tsize.
Proof.
  intros (T & L & M) SZ. unfold acc_no_check. unfold overhead, front, fixed, hsize, fsize, csize in *.
  rewrite u64_id by lia.
  set (x := size_ a - (Z.of_nat (l_size LH) + Z.of_nat (l_size LF) + Z.of_nat (l_size LC))).
  exists (x / tsize). split; [do 2 f_equal; lia|].
  assert (0 <= x) by (unfold x; lia). split; [apply Z.div_pos; lia|].
  pose proof (Z.div_mod x tsize ltac:(lia)). pose proof (Z.mod_pos_bound x tsize T). unfold x in *. lia.
Qed.
(** It reports the element count and payload position that deserialize reports, whenever
    deserialize does not reject the frame. *)
Theorem C82_no_check_agrees {H F C} (LH : layout H) (LF : layout F) (LC : layout C) calc crc_eqb tsize a r :
  acc_deserialize LH LF LC calc crc_eqb tsize a = Ok r -> r_data r <> None ->
  exists count data, acc_no_check LH LF LC tsize a = (0, Z.of_nat (l_size LH), count, data) /\
    r_size r = count /\ r_data r = Some data.
Proof.
  intros E NN. unfold acc_no_check. do 2 eexists. split; [reflexivity|]. unfold acc_deserialize in E.
  destruct (negb _); [inversion E; subst r; cbn in NN; congruence|].
  repeat match type of E with bind ?x _ = _ => destruct x; cbn [bind] in E; try discriminate end.
  inversion E; subst r. cbn [r_size r_data]. auto.
Qed.
Example C82_example :
  acc_no_check char_layout char_layout char_layout 2 (set_size (accessor_new 10) 8) = (0, 1, 2, 2).
Proof. vm_compute. reflexivity. Qed.

(** C83. *)
Theorem C83_write_header {H F C} (LH : layout H) (LF : layout F) (LC : layout C) calc crc_eqb p h :
  compares_equal crc_eqb -> length p = (l_size LH + l_size LF + l_size LC)%nat ->
  let q := set_header LH p h in
  length q = length p /\ packet_header LH q = h /\ packet_fields LH LF q = packet_fields LH LF p /\
  packet_crc LC q = packet_crc LC p /\
  (packet_valid LC calc crc_eqb q = true <->
   packet_crc LC p = calc (l_bytes LH h ++ slice p (Z.of_nat (l_size LH)) (Z.of_nat (l_size LF)))).
Proof.
  intros EQ LP q.
  assert (LQ : length q = length p) by (unfold q, set_header; rewrite app_length, skipn_length, l_len; lia).
  assert (CR : packet_crc LC q = packet_crc LC p).
  { unfold packet_crc. rewrite LQ, LP. unfold q, set_header.
    replace (l_size LH + l_size LF + l_size LC - l_size LC)%nat with (l_size LH + l_size LF)%nat by lia.
    rewrite skipn_app, l_len. rewrite (skipn_all2 (n:=(l_size LH + l_size LF)%nat)) by (rewrite l_len; lia). cbn [app].
    f_equal. apply list_eq_nth; [rewrite !skipn_length; lia|]. intros k _. rewrite !nth_skipn_add. f_equal. lia. }
  split; [exact LQ|]. split; [|split; [|split; [exact CR|]]].
  - unfold packet_header, q, set_header. rewrite firstn_len_app by apply l_len. apply l_of_to.
  - unfold packet_fields, q, set_header. rewrite skipn_len_app by apply l_len. reflexivity.
  - unfold packet_valid. rewrite CR, (EQ _ _). unfold covered. rewrite LQ, LP.
    replace (l_size LH + l_size LF + l_size LC - l_size LC)%nat with (l_size LH + l_size LF)%nat by lia.
    unfold q, set_header, slice. rewrite firstn_app, l_len, !Nat2Z.id.
    rewrite (firstn_all2 (n:=(l_size LH + l_size LF)%nat)) by (rewrite l_len; lia).
    replace (l_size LH + l_size LF - l_size LH)%nat with (l_size LF) by lia. reflexivity.
Qed.
Theorem C83_write_fields {H F C} (LH : layout H) (LF : layout F) (LC : layout C) calc crc_eqb p f :
  compares_equal crc_eqb -> length p = (l_size LH + l_size LF + l_size LC)%nat ->
  let q := set_fields LH LF p f in
  length q = length p /\ packet_header LH q = packet_header LH p /\ packet_fields LH LF q = f /\
  packet_crc LC q = packet_crc LC p /\
  (packet_valid LC calc crc_eqb q = true <->
   packet_crc LC p = calc (slice p 0 (Z.of_nat (l_size LH)) ++ l_bytes LF f)).
Proof.
  intros EQ LP q.
  assert (LF1 : length (firstn (l_size LH) p) = l_size LH) by (rewrite firstn_length; lia).
  assert (LQ : length q = length p) by (unfold q, set_fields; rewrite !app_length, skipn_length, l_len, LF1; lia).
  assert (CR : packet_crc LC q = packet_crc LC p).
  { unfold packet_crc. rewrite LQ, LP. unfold q, set_fields.
    replace (l_size LH + l_size LF + l_size LC - l_size LC)%nat with (l_size LH + l_size LF)%nat by lia.
    rewrite app_assoc, skipn_len_app by (rewrite app_length, l_len; lia). reflexivity. }
  split; [exact LQ|]. split; [|split; [|split; [exact CR|]]].
  - unfold packet_header, q, set_fields. rewrite firstn_len_app by exact LF1. reflexivity.
  - unfold packet_fields, q, set_fields. rewrite skipn_len_app by exact LF1. rewrite firstn_len_app by apply l_len. apply l_of_to.
  - unfold packet_valid. rewrite CR, (EQ _ _). unfold covered. rewrite LQ, LP.
    replace (l_size LH + l_size LF + l_size LC - l_size LC)%nat with (l_size LH + l_size LF)%nat by lia.
    unfold q, set_fields, slice. rewrite !Nat2Z.id. cbn [Z.to_nat skipn].
    rewrite app_assoc, firstn_len_app by (rewrite app_length, l_len; lia). reflexivity.
Qed.
Example C83_example :
  let p := packet_make char_layout char_layout char_layout sum_check "A"%char "B"%char in
  let q := set_header char_layout p "B"%char in
  packet_to_array q = [66; 66; 131] /\ packet_valid char_layout sum_check Ascii.eqb q = false /\
  packet_valid char_layout sum_check Ascii.eqb (set_fields char_layout char_layout q "A"%char) = true.
Proof. split; [|split]; vm_compute; reflexivity. Qed.

(** C87.  Objects as first constructed. *)
Theorem C87_default_packet {H F C} (LH : layout H) (LF : layout F) (LC : layout C) calc crc_eqb :
  compares_equal crc_eqb ->
  let n := (l_size LH + l_size LF + l_size LC)%nat in
  let p := packet_default H F C LH LF LC in
  packet_to_array p = repeat 0 n /\
  packet_header LH p = l_value LH (repeat 0 (l_size LH)) /\ packet_fields LH LF p = l_value LF (repeat 0 (l_size LF)) /\
  (packet_valid LC calc crc_eqb p = true <->
   calc (repeat 0 (l_size LH + l_size LF)) = l_value LC (repeat 0 (l_size LC))).
Proof.
  intros EQ n p.
  assert (E : p = repeat 0 (l_size LH) ++ repeat 0 (l_size LF) ++ repeat 0 (l_size LC)).
  { unfold p, packet_default, plen. rewrite !repeat_app, app_assoc. reflexivity. }
  split; [reflexivity|]. rewrite E. split; [|split].
  - unfold packet_header. rewrite firstn_len_app by apply repeat_length. reflexivity.
  - unfold packet_fields. rewrite skipn_len_app by apply repeat_length. rewrite firstn_len_app by apply repeat_length. reflexivity.
  - unfold packet_valid, packet_crc, covered. rewrite app_assoc, <- repeat_app. rewrite app_length, !repeat_length.
    replace (l_size LH + l_size LF + l_size LC - l_size LC)%nat with (l_size LH + l_size LF)%nat by lia.
    rewrite skipn_len_app, firstn_len_app by apply repeat_length. rewrite (EQ _ _). split; intros X; symmetry; exact X.
Qed.
(** A fresh accessor holds Max zero bytes and announces size 0; reading it is undefined when
    the size of the fixed part (plus a multiple of 2^64) happens to divide evenly, and refused otherwise. *)
Theorem C87_fresh_accessor_refuted {H F C} (LH : layout H) (LF : layout F) (LC : layout C) calc crc_eqb tsize Max :
  0 < tsize -> overhead LH LF LC <= Z.of_nat Max < W64 -> (0 < l_size LC)%nat ->
  storage (accessor_new Max) = repeat 0 Max /\ size_ (accessor_new Max) = 0 /\
  ((tsize | W64 - overhead LH LF LC) -> acc_deserialize LH LF LC calc crc_eqb tsize (accessor_new Max) = UB) /\
  (~ (tsize | W64 - overhead LH LF LC) ->
   exists r, acc_deserialize LH LF LC calc crc_eqb tsize (accessor_new Max) = Ok r /\
  r_valid r = false /\ r_size r = 0 /\ r_data r = None).
Proof.
  intros T M C0. split; [reflexivity|]. split; [reflexivity|].
  assert (P : 0 < overhead LH LF LC) by (unfold overhead; lia).
  assert (E : (size_ (accessor_new Max) - overhead LH LF LC) mod W64 = W64 - overhead LH LF LC).
  { cbn [accessor_new size_]. replace (0 - overhead LH LF LC) with (W64 - overhead LH LF LC + (-1) * W64) by lia.
    rewrite Z.mod_add by (unfold W64; lia). apply Z.mod_small. lia. }
  split.
  - intros D. apply C70_out_of_bounds_refuted.
    + split; [exact T|]. cbn [accessor_new storage]. rewrite repeat_length. unfold overhead in M. lia.
    + cbn [accessor_new size_]. unfold W64; lia.
    + rewrite E. apply Z.mod_divide; [lia|exact D].
    + right. cbn [accessor_new size_]. lia.
  - intros D. apply C70_bad_size_rejected. rewrite E. intros X. apply D. apply Z.mod_divide; [lia|exact X].
Qed.
Example C87_example :
  packet_valid char_layout sum_check Ascii.eqb (packet_default _ _ _ char_layout char_layout char_layout) = true /\
  acc_deserialize char_layout char_layout char_layout sum_check Ascii.eqb 1 (accessor_new 16) = UB /\
  r_valid (match acc_deserialize char_layout char_layout char_layout sum_check Ascii.eqb 2 (accessor_new 16) with
           | Ok r => r | _ => Out None None true 0 None end) = false.
Proof. repeat split; vm_compute; reflexivity. Qed.

Print Assumptions C63_constructed_packet.
Print Assumptions C63_rebuilt_packet.
Print Assumptions C64_valid_iff.
Print Assumptions C64_corrupt_checksum.
Print Assumptions C65_static_serialize.
Print Assumptions C66_accessor_round_trip.
Print Assumptions C66_empty_payload.
Print Assumptions C67_true_iff_fits.
Print Assumptions C68_safe_without_wrap.
Print Assumptions C68_wrap_refuted.
Print Assumptions C68_wrapping_counts_exist.
Print Assumptions C68_wrap_without_data.
Print Assumptions C69_sized_frames.
Print Assumptions C69_reads_announced_bytes.
Print Assumptions C70_bad_size_rejected.
Print Assumptions C70_out_of_bounds_refuted.
Print Assumptions C70_phantom_payload_refuted.
Print Assumptions C82_no_check_in_range.
Print Assumptions C82_no_check_agrees.
Print Assumptions C83_write_header.
Print Assumptions C83_write_fields.
Print Assumptions C87_default_packet.
Print Assumptions C87_fresh_accessor_refuted.
