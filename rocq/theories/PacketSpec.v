(** Vocabulary for the packet properties. *)
From Coq Require Export Ascii NArith.
From Verif Require Export PacketModel.

(** The comparison of checksums is equality of checksums. *)
Definition compares_equal {C} (eqb : C -> C -> bool) : Prop := forall x y, eqb x y = true <-> x = y.
(** Received bytes. *)
Definition octets (l : list Z) : Prop := forall b, In b l -> 0 <= b < 256.
(** A type without padding: every byte string of the right length is the bytes of a value. *)
Definition unpadded {T} (L : layout T) : Prop :=
  forall b, length b = l_size L -> octets b -> l_bytes L (l_value L b) = b.

(** An accessor as the code creates it: Max bytes, at least the fixed part
    (the static_assert of packet.hpp:220), an element type of positive size. *)
Definition proper {H F C} (LH : layout H) (LF : layout F) (LC : layout C) (tsize : Z) (a : accessor) : Prop :=
  0 < tsize /\ Z.of_nat (l_size LH + l_size LF + l_size LC) <= Z.of_nat (length (storage a)) < W64.
(** Bytes of the frame without payload; bytes in front of the payload. *)
Definition overhead {H F C} (LH : layout H) (LF : layout F) (LC : layout C) : Z :=
  Z.of_nat (l_size LH + l_size LF + l_size LC).
Definition front {H F} (LH : layout H) (LF : layout F) : Z := Z.of_nat (l_size LH + l_size LF).
(** [count] bytes of [l] from position [start]. *)
Definition slice (l : list Z) (start count : Z) : list Z := firstn (Z.to_nat count) (skipn (Z.to_nat start) l).

(** Material for the examples: one-byte header and fields, a one-byte checksum. *)
Definition char_bytes (c : ascii) : list Z := [Z.of_N (N_of_ascii c)].
Definition char_value (l : list Z) : ascii := ascii_of_N (Z.to_N (hd 0 l)).
Lemma char_len c : length (char_bytes c) = 1%nat.
Proof. reflexivity. Qed.
Lemma char_range c b : In b (char_bytes c) -> 0 <= b < 256.
Proof. intros [<-|[]]. pose proof (N_ascii_bounded c). lia. Qed.
Lemma char_of_to c : char_value (char_bytes c) = c.
Proof. unfold char_value, char_bytes. cbn [hd]. rewrite N2Z.id. apply ascii_N_embedding. Qed.
Definition char_layout : layout ascii := Layout ascii 1 char_bytes char_value char_len char_range char_of_to.
Definition sum_check (l : list Z) : ascii := ascii_of_N (Z.to_N (fold_right Z.add 0 l mod 256)).

Arguments packet_make {H F C}. Arguments packet_valid {C}. Arguments packet_header {H}. Arguments packet_fields {H F}.
Arguments packet_serialize {H F C}. Arguments packet_of_iter {H F C}. Arguments packet_deserialize {H F C}.
Arguments packet_crc {C}. Arguments set_header {H}. Arguments set_fields {H F}.
Arguments acc_serialize {H F C}. Arguments acc_deserialize {H F C}. Arguments acc_no_check {H F C}.
