(** Lemmas for the packet properties. *)
From Verif Require Export PacketModel.

Lemma firstn_len_app {A} (l1 l2 : list A) n : length l1 = n -> firstn n (l1 ++ l2) = l1.
Proof. intros <-. rewrite firstn_app, Nat.sub_diag, firstn_all. cbn. apply app_nil_r. Qed.
Lemma skipn_len_app {A} (l1 l2 : list A) n : length l1 = n -> skipn n (l1 ++ l2) = l2.
Proof. intros <-. rewrite skipn_app, Nat.sub_diag, skipn_all. reflexivity. Qed.

Lemma at_offset_ok a i : 0 <= i <= Z.of_nat (length a) -> at_offset a i = Ok (skipn (Z.to_nat i) a).
Proof.
  intros L. unfold at_offset. destruct (Z.ltb_spec i 0); [lia|]. destruct (Z.ltb_spec (Z.of_nat (length a)) i); [lia|]. reflexivity.
Qed.
Lemma at_offset_ub a i : i < 0 \/ Z.of_nat (length a) < i -> at_offset a i = UB.
Proof.
  intros L. unfold at_offset. destruct (Z.ltb_spec i 0); [reflexivity|]. destruct (Z.ltb_spec (Z.of_nat (length a)) i); [reflexivity|lia].
Qed.

Definition patch (a : list Z) (i : Z) (b : list Z) : list Z :=
  firstn (Z.to_nat i) a ++ b ++ skipn (Z.to_nat i + length b) a.

Lemma write_at_ok a i b : 0 <= i -> i + Z.of_nat (length b) <= Z.of_nat (length a) -> write_at a i b = Ok (patch a i b).
Proof.
  intros L1 L2. unfold write_at. rewrite at_offset_ok by lia. cbn [bind]. unfold write_bytes.
  rewrite skipn_length. destruct (Nat.ltb_spec (length a - Z.to_nat i) (length b)); [lia|]. cbn [bind].
  unfold patch. do 2 f_equal. f_equal. clear.
  assert (SS : forall n m (l : list Z), skipn n (skipn m l) = skipn (m + n) l).
  { intros n m. revert n. induction m as [|m IH]; intros n l; [reflexivity|]. destruct l; [destruct n; reflexivity|]. apply IH. }
  apply SS.
Qed.
Lemma write_at_ub a i b : i < 0 \/ Z.of_nat (length a) < i + Z.of_nat (length b) -> write_at a i b = UB.
Proof.
  intros L. unfold write_at. destruct (Z.lt_ge_cases i 0) as [N|N]; [rewrite at_offset_ub by lia; reflexivity|].
  destruct (Z.lt_ge_cases (Z.of_nat (length a)) i) as [M|M]; [rewrite at_offset_ub by lia; reflexivity|].
  rewrite at_offset_ok by lia. cbn [bind]. unfold write_bytes. rewrite skipn_length.
  destruct (Nat.ltb_spec (length a - Z.to_nat i) (length b)); [reflexivity|lia].
Qed.
Lemma patch_len a i b : 0 <= i -> i + Z.of_nat (length b) <= Z.of_nat (length a) -> length (patch a i b) = length a.
Proof. intros L1 L2. unfold patch. rewrite !app_length, firstn_length, skipn_length. lia. Qed.
(** Bytes of a patched array. *)
Lemma patch_nth a i b k : 0 <= i -> i + Z.of_nat (length b) <= Z.of_nat (length a) ->
  nth k (patch a i b) 0 =
  if (Z.of_nat k <? i) then nth k a 0
  else if (Z.of_nat k <? i + Z.of_nat (length b)) then nth (k - Z.to_nat i) b 0 else nth k a 0.
Proof.
  intros L1 L2. unfold patch.
  assert (LF : length (firstn (Z.to_nat i) a) = Z.to_nat i) by (rewrite firstn_length; lia).
  destruct (Z.ltb_spec (Z.of_nat k) i) as [K|K].
  - rewrite app_nth1 by lia. rewrite <- (firstn_skipn (Z.to_nat i) a) at 2. rewrite app_nth1 by lia. reflexivity.
  - rewrite app_nth2, LF by lia. destruct (Z.ltb_spec (Z.of_nat k) (i + Z.of_nat (length b))) as [K2|K2].
    + rewrite app_nth1 by lia. reflexivity.
    + rewrite app_nth2 by lia.
      assert (SN : forall m j (l : list Z), nth j (skipn m l) 0 = nth (m + j) l 0).
      { induction m as [|m IH]; intros j l; [reflexivity|]. destruct l as [|x l]; [destruct j; reflexivity|]. apply IH. }
      rewrite SN. f_equal. lia.
Qed.
Lemma nth_firstn_lt (l : list Z) n k : (k < n)%nat -> nth k (firstn n l) 0 = nth k l 0.
Proof.
  revert n k. induction l as [|x l IH]; intros [|n] [|k] L; cbn; try lia; try reflexivity. apply IH. lia.
Qed.
Lemma nth_skipn_add (l : list Z) m j : nth j (skipn m l) 0 = nth (m + j) l 0.
Proof. revert l j. induction m as [|m IH]; intros l j; [reflexivity|]. destruct l as [|x l]; [destruct j; reflexivity|]. apply IH. Qed.
Lemma list_eq_nth (l1 l2 : list Z) : length l1 = length l2 ->
  (forall k, (k < length l1)%nat -> nth k l1 0 = nth k l2 0) -> l1 = l2.
Proof. intros L E. apply (nth_ext l1 l2 0 0 L E). Qed.

Section Acc.
  Context {H F C : Type} (LH : layout H) (LF : layout F) (LC : layout C).
  Variable calc : list Z -> C.
  Variable crc_eqb : C -> C -> bool.
  Variable tsize : Z.
  Notation fixed := (fixed H F C LH LF LC).
  Notation hsize := (hsize H LH).
  Notation fsize := (fsize F LF).
  Notation csize := (csize C LC).
  Notation ser := (acc_serialize H F C LH LF LC calc tsize).

  Lemma len_h h : Z.of_nat (length (l_bytes LH h)) = hsize.
  Proof. unfold hsize. rewrite l_len. reflexivity. Qed.
  Lemma len_f f : Z.of_nat (length (l_bytes LF f)) = fsize.
  Proof. unfold fsize. rewrite l_len. reflexivity. Qed.
  Lemma len_c c : Z.of_nat (length (l_bytes LC c)) = csize.
  Proof. unfold csize. rewrite l_len. reflexivity. Qed.
  Lemma sizes_pos : 0 <= hsize /\ 0 <= fsize /\ 0 <= csize /\ fixed = hsize + fsize + csize.
  Proof. unfold PacketModel.fixed, hsize, fsize, csize. lia. Qed.

  (** What serialize leaves in the storage when nothing wraps. *)
  Definition framed (s : list Z) (h : H) (f : F) (n : Z) (data : option (list Z)) : list Z :=
    let s2 := patch (patch s 0 (l_bytes LH h)) hsize (l_bytes LF f) in
    let s3 := match data with
              | Some src => if 0 <? n then patch s2 (hsize + fsize) (firstn (Z.to_nat (n * tsize)) src) else s2
              | None => s2
              end in
    let off := hsize + fsize + n * tsize in
    patch s3 off (l_bytes LC (calc (firstn (Z.to_nat off) s3))).

  Lemma ser_fits a h f n data :
    0 < tsize -> max_of a < W64 -> 0 <= n -> fixed + n * tsize <= max_of a ->
    (forall src, data = Some src -> 0 < n -> n * tsize <= Z.of_nat (length src)) ->
    ser a h f n data = Ok (Accessor (framed (storage a) h f n data) (fixed + n * tsize), true).
  Proof.
    intros T M N L HD. pose proof sizes_pos as (P1 & P2 & P3 & P4).
    assert (0 <= n * tsize) by (apply Z.mul_nonneg_nonneg; lia).
    unfold acc_serialize. rewrite (u64_id (n * tsize)) by lia. rewrite (u64_id (n * tsize + fixed)) by lia.
    destruct (Z.ltb_spec (max_of a) (n * tsize + fixed)); [lia|]. unfold max_of in *.
    pose proof (len_h h) as E1. pose proof (len_f f) as E2.
    rewrite write_at_ok by lia. cbn [bind].
    assert (L1 : length (patch (storage a) 0 (l_bytes LH h)) = length (storage a)) by (apply patch_len; lia).
    rewrite write_at_ok by lia. cbn [bind].
    assert (L2 : length (patch (patch (storage a) 0 (l_bytes LH h)) hsize (l_bytes LF f)) = length (storage a)).
    { rewrite patch_len; lia. }
    unfold framed. set (s2 := patch (patch (storage a) 0 (l_bytes LH h)) hsize (l_bytes LF f)) in *.
    assert (FIN : forall s3, length s3 = length (storage a) ->
      (_ <- at_offset s3 (hsize + fsize + n * tsize) ;;
       s4 <- write_at s3 (hsize + fsize + n * tsize) (l_bytes LC (calc (firstn (Z.to_nat (hsize + fsize + n * tsize)) s3))) ;;
       Ok (Accessor s4 (u64 (fixed + n * tsize)), true)) =
      Ok (Accessor (patch s3 (hsize + fsize + n * tsize) (l_bytes LC (calc (firstn (Z.to_nat (hsize + fsize + n * tsize)) s3))))
            (fixed + n * tsize), true)).
    { intros s3 L3. rewrite at_offset_ok by lia. cbn [bind]. rewrite write_at_ok by (rewrite ?len_c; lia). cbn [bind].
      rewrite u64_id by lia. reflexivity. }
    destruct data as [src|].
    - specialize (HD src eq_refl). destruct (Z.ltb_spec 0 n) as [NP|NP].
      + specialize (HD NP). destruct (Z.ltb_spec (Z.of_nat (length src)) (n * tsize)); [lia|].
        assert (LS : Z.of_nat (length (firstn (Z.to_nat (n * tsize)) src)) = n * tsize) by (rewrite firstn_length; lia).
        rewrite write_at_ok by lia. cbn [bind]. apply FIN. rewrite patch_len; lia.
      + cbn [bind]. apply FIN, L2.
    - cbn [bind]. apply FIN, L2.
  Qed.

  Lemma ser_true_fits a h f n src a' :
    0 < tsize -> max_of a < W64 -> fixed <= max_of a -> 0 <= n ->
    ser a h f n (Some src) = Ok (a', true) ->
    fixed + n * tsize <= max_of a /\ (0 < n -> n * tsize <= Z.of_nat (length src)).
  Proof.
    intros T M FX N E. pose proof sizes_pos as (P1 & P2 & P3 & P4).
    destruct (Z.eq_dec n 0) as [->|NZ]; [rewrite Z.mul_0_l; lia|].
    assert (0 < n * tsize) by (apply Z.mul_pos_pos; lia).
    unfold acc_serialize in E. destruct (Z.ltb_spec (max_of a) (u64 (u64 (n * tsize) + fixed))) as [HM|HM]; [inversion E|].
    unfold max_of in *. pose proof (len_h h) as E1. pose proof (len_f f) as E2.
    rewrite write_at_ok in E by lia. cbn [bind] in E.
    assert (L1 : length (patch (storage a) 0 (l_bytes LH h)) = length (storage a)) by (apply patch_len; lia).
    rewrite write_at_ok in E by lia. cbn [bind] in E.
    assert (L2 : length (patch (patch (storage a) 0 (l_bytes LH h)) hsize (l_bytes LF f)) = length (storage a)).
    { rewrite patch_len; lia. }
    set (s2 := patch (patch (storage a) 0 (l_bytes LH h)) hsize (l_bytes LF f)) in *.
    destruct (Z.ltb_spec 0 n) as [NP|NP]; [|lia].
    destruct (Z.ltb_spec (Z.of_nat (length src)) (n * tsize)) as [LS|LS]; [discriminate|].
    split; [|lia].
    assert (LS' : Z.of_nat (length (firstn (Z.to_nat (n * tsize)) src)) = n * tsize) by (rewrite firstn_length; lia).
    destruct (Z.lt_ge_cases (Z.of_nat (length s2)) (hsize + fsize + n * tsize)) as [B|B].
    - rewrite write_at_ub in E by lia. discriminate.
    - rewrite L2 in B. rewrite (u64_id (n * tsize)) in HM by lia.
      destruct (Z.lt_ge_cases (n * tsize + fixed) W64) as [S|S].
      + rewrite u64_id in HM by lia. lia.
      + (* the total wraps although the payload fits: the checksum write fails *)
        rewrite write_at_ok in E by lia. cbn [bind] in E. rewrite (u64_id (n * tsize)) in E by lia.
        set (s3 := patch s2 (hsize + fsize) (firstn (Z.to_nat (n * tsize)) src)) in *.
        assert (L3 : length s3 = length (storage a)) by (unfold s3; rewrite patch_len; lia).
        rewrite at_offset_ok in E by lia. cbn [bind] in E. rewrite write_at_ub in E by (rewrite len_c; lia). discriminate.
  Qed.

  Lemma framed_len s h f n data : 0 < tsize -> 0 <= n -> fixed + n * tsize <= Z.of_nat (length s) ->
    (forall src, data = Some src -> 0 < n -> n * tsize <= Z.of_nat (length src)) ->
    length (framed s h f n data) = length s.
  Proof.
    intros T N L HD. pose proof sizes_pos as (P1 & P2 & P3 & P4).
    assert (0 <= n * tsize) by (apply Z.mul_nonneg_nonneg; lia).
    pose proof (len_h h) as E1. pose proof (len_f f) as E2. unfold framed.
    set (s2 := patch (patch s 0 (l_bytes LH h)) hsize (l_bytes LF f)).
    assert (L2 : length s2 = length s).
    { unfold s2. rewrite !patch_len; try lia. rewrite patch_len; lia. }
    assert (L3 : length (match data with Some src => if 0 <? n then patch s2 (hsize + fsize) (firstn (Z.to_nat (n * tsize)) src) else s2 | None => s2 end) = length s).
    { destruct data as [src|]; [|exact L2]. destruct (Z.ltb_spec 0 n) as [NP|NP]; [|exact L2].
      specialize (HD src eq_refl NP). rewrite patch_len; [exact L2|lia|]. rewrite firstn_length. lia. }
    rewrite patch_len; [exact L3|lia|]. rewrite len_c, L3. lia.
  Qed.

  (** The parts of the frame. *)
  Lemma framed_parts s h f n data : 0 < tsize -> 0 <= n -> fixed + n * tsize <= Z.of_nat (length s) ->
    (forall src, data = Some src -> 0 < n -> n * tsize <= Z.of_nat (length src)) ->
    let r := framed s h f n data in
    let off := Z.to_nat (hsize + fsize + n * tsize) in
    firstn (Z.to_nat hsize) r = l_bytes LH h /\
    firstn (Z.to_nat fsize) (skipn (Z.to_nat hsize) r) = l_bytes LF f /\
    (forall src, data = Some src -> firstn (Z.to_nat (n * tsize)) (skipn (Z.to_nat (hsize + fsize)) r) = firstn (Z.to_nat (n * tsize)) src) /\
    (data = None -> firstn (Z.to_nat (n * tsize)) (skipn (Z.to_nat (hsize + fsize)) r) = firstn (Z.to_nat (n * tsize)) (skipn (Z.to_nat (hsize + fsize)) s)) /\
    firstn (l_size LC) (skipn off r) = l_bytes LC (calc (firstn off r)) /\
    skipn (Z.to_nat (fixed + n * tsize)) r = skipn (Z.to_nat (fixed + n * tsize)) s.
  Proof.
    intros T N L HD r off. pose proof sizes_pos as (P1 & P2 & P3 & P4).
    assert (NT : 0 <= n * tsize) by (apply Z.mul_nonneg_nonneg; lia).
    pose proof (len_h h) as E1. pose proof (len_f f) as E2.
    assert (LR : length r = length s) by (apply framed_len; assumption).
    set (s1 := patch s 0 (l_bytes LH h)) in *.
    set (s2 := patch s1 hsize (l_bytes LF f)) in *.
    assert (L1 : length s1 = length s) by (unfold s1; rewrite patch_len; lia).
    assert (L2 : length s2 = length s) by (unfold s2; rewrite patch_len; lia).
    set (s3 := match data with Some src => if 0 <? n then patch s2 (hsize + fsize) (firstn (Z.to_nat (n * tsize)) src) else s2 | None => s2 end) in *.
    assert (L3 : length s3 = length s).
    { unfold s3. destruct data as [src|]; [|exact L2]. destruct (Z.ltb_spec 0 n) as [NP|NP]; [|exact L2].
      specialize (HD src eq_refl NP). rewrite patch_len; [exact L2|lia|]. rewrite firstn_length. lia. }
    set (cb := l_bytes LC (calc (firstn off s3))).
    assert (ER : r = patch s3 (hsize + fsize + n * tsize) cb) by reflexivity.
    assert (LCB : Z.of_nat (length cb) = csize) by apply len_c.
    assert (R3 : forall k, (Z.of_nat k < hsize + fsize + n * tsize)%Z -> nth k r 0 = nth k s3 0).
    { intros k K. rewrite ER, patch_nth by lia. destruct (Z.ltb_spec (Z.of_nat k) (hsize + fsize + n * tsize)); [reflexivity|lia]. }
    assert (S3 : forall k, (Z.of_nat k < hsize + fsize)%Z -> nth k s3 0 = nth k s2 0).
    { intros k K. unfold s3. destruct data as [src|]; [|reflexivity]. destruct (Z.ltb_spec 0 n) as [NP|NP]; [|reflexivity].
      specialize (HD src eq_refl NP). rewrite patch_nth by (rewrite ?firstn_length; lia).
      destruct (Z.ltb_spec (Z.of_nat k) (hsize + fsize)); [reflexivity|lia]. }
    assert (PRE : firstn off r = firstn off s3).
    { apply list_eq_nth; rewrite ?firstn_length; [lia|]. intros k K. rewrite !nth_firstn_lt by lia. apply R3. lia. }
    split; [|split; [|split; [|split; [|split]]]].
    - apply list_eq_nth; [rewrite firstn_length; lia|]. rewrite firstn_length. intros k K.
      rewrite nth_firstn_lt by lia. rewrite R3, S3 by lia. unfold s2. rewrite patch_nth by lia.
      destruct (Z.ltb_spec (Z.of_nat k) hsize); [|lia]. unfold s1. rewrite patch_nth by lia.
      destruct (Z.ltb_spec (Z.of_nat k) 0); [lia|]. destruct (Z.ltb_spec (Z.of_nat k) (0 + Z.of_nat (length (l_bytes LH h)))); [|lia].
      f_equal. lia.
    - apply list_eq_nth; [rewrite firstn_length, skipn_length; lia|]. rewrite firstn_length, skipn_length. intros k K.
      rewrite nth_firstn_lt, nth_skipn_add by lia. rewrite R3, S3 by lia. unfold s2. rewrite patch_nth by lia.
      destruct (Z.ltb_spec (Z.of_nat (Z.to_nat hsize + k)) hsize); [lia|].
      destruct (Z.ltb_spec (Z.of_nat (Z.to_nat hsize + k)) (hsize + Z.of_nat (length (l_bytes LF f)))); [|lia]. f_equal. lia.
    - intros src ED. destruct (Z.eq_dec n 0) as [N0|N0].
      { rewrite N0. replace (0 * tsize) with 0 by lia. reflexivity. }
      specialize (HD src ED ltac:(lia)).
      apply list_eq_nth; [rewrite !firstn_length, skipn_length; lia|]. rewrite firstn_length, skipn_length. intros k K.
      rewrite !nth_firstn_lt, nth_skipn_add by lia. rewrite R3 by lia. unfold s3. rewrite ED.
      destruct (Z.ltb_spec 0 n) as [NP|NP]; [|lia]. rewrite patch_nth by (rewrite ?firstn_length; lia).
      destruct (Z.ltb_spec (Z.of_nat (Z.to_nat (hsize + fsize) + k)) (hsize + fsize)); [lia|].
      rewrite firstn_length.
      match goal with |- context [?x <? ?y] => destruct (Z.ltb_spec x y) end; [|lia].
      rewrite nth_firstn_lt by lia. f_equal. lia.
    - intros ED. apply list_eq_nth; [rewrite !firstn_length, !skipn_length; lia|]. rewrite firstn_length, skipn_length. intros k K.
      rewrite !nth_firstn_lt, !nth_skipn_add by lia. rewrite R3 by lia. unfold s3. rewrite ED.
      unfold s2. rewrite patch_nth by lia.
      destruct (Z.ltb_spec (Z.of_nat (Z.to_nat (hsize + fsize) + k)) hsize); [lia|].
      match goal with |- context [?x <? ?y] => destruct (Z.ltb_spec x y) end; [lia|].
      unfold s1. rewrite patch_nth by lia.
      match goal with |- context [?x <? ?y] => destruct (Z.ltb_spec x y) end; [lia|].
      match goal with |- context [?x <? ?y] => destruct (Z.ltb_spec x y) end; [lia|]. reflexivity.
    - rewrite PRE. fold cb. apply list_eq_nth; [rewrite firstn_length, skipn_length; unfold csize in *; lia|].
      rewrite firstn_length, skipn_length. intros k K. unfold PacketModel.csize in *.
      rewrite nth_firstn_lt, nth_skipn_add by lia. rewrite ER, patch_nth by lia.
      destruct (Z.ltb_spec (Z.of_nat (off + k)) (hsize + fsize + n * tsize)); [lia|].
      destruct (Z.ltb_spec (Z.of_nat (off + k)) (hsize + fsize + n * tsize + Z.of_nat (length cb))); [|lia]. f_equal. lia.
    - apply list_eq_nth; [rewrite !skipn_length; lia|]. rewrite skipn_length. intros k K.
      rewrite !nth_skipn_add. rewrite ER, patch_nth by lia.
      match goal with |- context [?x <? ?y] => destruct (Z.ltb_spec x y) end; [lia|].
      match goal with |- context [?x <? ?y] => destruct (Z.ltb_spec x y) end; [lia|].
      assert (S32 : forall j, (hsize + fsize + n * tsize <= Z.of_nat j)%Z -> nth j s3 0 = nth j s 0).
      { intros j J. assert (S2 : nth j s2 0 = nth j s 0).
        { unfold s2. rewrite patch_nth by lia.
          match goal with |- context [?x <? ?y] => destruct (Z.ltb_spec x y) end; [lia|].
          match goal with |- context [?x <? ?y] => destruct (Z.ltb_spec x y) end; [lia|].
          unfold s1. rewrite patch_nth by lia.
          match goal with |- context [?x <? ?y] => destruct (Z.ltb_spec x y) end; [lia|].
          match goal with |- context [?x <? ?y] => destruct (Z.ltb_spec x y) end; [lia|]. reflexivity. }
        unfold s3. destruct data as [src|]; [|exact S2]. destruct (Z.ltb_spec 0 n) as [NP|NP]; [|exact S2].
        specialize (HD src eq_refl NP). rewrite patch_nth by (rewrite ?firstn_length; lia).
        rewrite firstn_length.
        match goal with |- context [?x <? ?y] => destruct (Z.ltb_spec x y) end; [lia|].
        match goal with |- context [?x <? ?y] => destruct (Z.ltb_spec x y) end; [lia|]. exact S2. }
      apply S32. lia.
  Qed.

  (** Deserializing a size in range. *)
  Lemma deser_ok a : 0 < tsize -> max_of a < W64 -> fixed <= size_ a <= max_of a ->
    acc_deserialize H F C LH LF LC calc crc_eqb tsize a =
    if negb ((size_ a - fixed) mod tsize =? 0) then Ok (Out None None false 0 None)
    else Ok (Out (Some (l_value LH (firstn (Z.to_nat hsize) (storage a))))
                 (Some (l_value LF (firstn (Z.to_nat fsize) (skipn (Z.to_nat hsize) (storage a)))))
                 (crc_eqb (l_value LC (firstn (l_size LC) (skipn (Z.to_nat (size_ a - csize)) (storage a))))
                          (calc (firstn (Z.to_nat (size_ a - csize)) (storage a))))
                 ((size_ a - fixed) / tsize) (Some (hsize + fsize))).
  Proof.
    intros T M L. pose proof sizes_pos as (P1 & P2 & P3 & P4). unfold max_of in *. unfold acc_deserialize.
    rewrite u64_id by lia. destruct (negb _); [reflexivity|].
    rewrite at_offset_ok by lia. cbn [bind]. unfold data_deserialize, read_bytes. cbn [Z.to_nat skipn].
    unfold PacketModel.hsize, PacketModel.fsize, PacketModel.csize in *.
    destruct (Nat.ltb_spec (length (storage a)) (l_size LH)); [lia|]. cbn [bind].
    rewrite at_offset_ok by lia. cbn [bind]. rewrite skipn_length.
    destruct (Nat.ltb_spec (length (storage a) - Z.to_nat (Z.of_nat (l_size LH))) (l_size LF)); [lia|]. cbn [bind].
    rewrite at_offset_ok by lia. cbn [bind]. rewrite at_offset_ok by lia. cbn [bind]. rewrite skipn_length.
    destruct (Nat.ltb_spec (length (storage a) - Z.to_nat (size_ a - Z.of_nat (l_size LC))) (l_size LC)); [lia|]. cbn [bind].
    rewrite !Nat2Z.id. reflexivity.
  Qed.
End Acc.
