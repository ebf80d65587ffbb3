(** Model of include/xitren/func/packet.hpp. *)
From Verif Require Export DataModel.

(** Header, Fields and Crc::value_type are trivially copyable; packed structs are the
    concatenation of their members (packet.hpp:30-39).  Crc::calculate and the comparison
    of checksums are arbitrary functions.
    Not modelled, because they do not compile when used: the const accessors and crc()
    (64-74, 82-92) and deserialize from an array (114-122). *)
Section Packet.
  Variables H F C : Type.
  Variables (LH : layout H) (LF : layout F) (LC : layout C).
  Variable calc : list Z -> C.
  Variable crc_eqb : C -> C -> bool.

  (** length (28), sizeof(struct_type). *)
  Definition plen : nat := l_size LH + l_size LF + l_size LC.

  (** A packet is its bytes (the union of fields_ and pure_, 141-143). *)
  Definition packet := list Z.
  (** packet(array) (43), packet(iterator) (45-49), packet() (51), packet(h, f) (53-56). *)
  Definition packet_of_array (a : list Z) : packet := a.
  Definition packet_of_iter (src : list Z) : res packet := read_bytes plen src.
  Definition packet_default : packet := repeat 0 plen.
  (** pure_.begin() .. pure_.end() - sizeof(crc). *)
  Definition covered (p : packet) : list Z := firstn (length p - l_size LC) p.
  Definition put_crc (p : packet) (c : C) : packet := covered p ++ l_bytes LC c.
  Definition packet_make (h : H) (f : F) : packet :=
    let p := l_bytes LH h ++ l_bytes LF f ++ repeat 0 (l_size LC) in
    put_crc p (calc (covered p)).
  (** header() (58-62), fields() (76-80): references into the packet. *)
  Definition packet_header (p : packet) : H := l_value LH (firstn (l_size LH) p).
  Definition packet_fields (p : packet) : F := l_value LF (firstn (l_size LF) (skipn (l_size LH) p)).
  Definition set_header (p : packet) (h : H) : packet := l_bytes LH h ++ skipn (l_size LH) p.
  Definition set_fields (p : packet) (f : F) : packet :=
    firstn (l_size LH) p ++ l_bytes LF f ++ skipn (l_size LH + l_size LF) p.
  (** fields_.crc, valid() (94-98), to_array() (100-104). *)
  Definition packet_crc (p : packet) : C := l_value LC (skipn (length p - l_size LC) p).
  Definition packet_valid (p : packet) : bool := crc_eqb (packet_crc p) (calc (covered p)).
  Definition packet_to_array (p : packet) : list Z := p.
  (** serialize(h, f) (106-112). *)
  Definition packet_serialize (h : H) (f : F) : list Z :=
    let tr := l_bytes LH h ++ l_bytes LF f in
    let crc := calc tr in
    l_bytes LH h ++ l_bytes LF f ++ l_bytes LC crc.
  (** deserialize(iterator) (124-131), serialize(packet, iterator) (133-139). *)
  Definition packet_deserialize (src : list Z) : res packet := read_bytes plen src.
  Definition packet_serialize_to (p : packet) (dst : list Z) : res (list Z) := write_bytes p dst.

  (** ** packet_accessor<Max> (146-266) *)
  Variable tsize : Z.                          (* sizeof(Type) *)
  Record accessor := Accessor { storage : list Z; size_ : Z }.
  Definition accessor_new (Max : nat) : accessor := Accessor (repeat 0 Max) 0.    (* 263-265 *)
  Definition set_size (a : accessor) (n : Z) : accessor := Accessor (storage a) (u64 n). (* 245-249 *)

  Definition hsize : Z := Z.of_nat (l_size LH).
  Definition fsize : Z := Z.of_nat (l_size LF).
  Definition csize : Z := Z.of_nat (l_size LC).
  Definition fixed : Z := hsize + fsize + csize.   (* length (198, 219) *)
  Definition max_of (a : accessor) : Z := Z.of_nat (length (storage a)).

  (** storage_.begin() + i: only within the array or one past its end. *)
  Definition at_offset (a : list Z) (i : Z) : res (list Z) :=
    if (i <? 0) || (Z.of_nat (length a) <? i) then UB else Ok (skipn (Z.to_nat i) a).
  Definition write_at (a : list Z) (i : Z) (b : list Z) : res (list Z) :=
    t <- at_offset a i ;; t' <- write_bytes b t ;; Ok (firstn (Z.to_nat i) a ++ t').

  (** fields_out (153-160); the data pointer as an offset into the storage, None = nullptr. *)
  Record out := Out { r_header : option H; r_fields : option F; r_valid : bool; r_size : Z; r_data : option Z }.

  (** serialize (215-237).  [data]: None = nullptr, otherwise the bytes lying at the pointer
      up to the end of the caller's array. *)
  Definition acc_serialize (a : accessor) (h : H) (f : F) (n : Z) (data : option (list Z)) : res (accessor * bool) :=
    if max_of a <? u64 (u64 (n * tsize) + fixed) then Ok (a, false)
    else
      s1 <- write_at (storage a) 0 (l_bytes LH h) ;;
      s2 <- write_at s1 hsize (l_bytes LF f) ;;
      s3 <- match data with
            | Some src =>
              if 0 <? n then
                if Z.of_nat (length src) <? n * tsize then UB
                else write_at s2 (hsize + fsize) (firstn (Z.to_nat (n * tsize)) src)
              else Ok s2
            | None => Ok s2
            end ;;
      let off := hsize + fsize + u64 (n * tsize) in
      _ <- at_offset s3 off ;;
      let crc := calc (firstn (Z.to_nat off) s3) in
      s4 <- write_at s3 off (l_bytes LC crc) ;;
      Ok (Accessor s4 (u64 (fixed + u64 (n * tsize))), true).

  (** deserialize (193-213). *)
  Definition acc_deserialize (a : accessor) : res out :=
    let rest := u64 (size_ a - fixed) in
    let variable_part := rest / tsize in
    if negb (rest mod tsize =? 0) then Ok (Out None None false 0 None)
    else
      hb <- at_offset (storage a) 0 ;;
      h <- data_deserialize LH hb ;;
      fb <- at_offset (storage a) hsize ;;
      f <- data_deserialize LF fb ;;
      _ <- at_offset (storage a) (size_ a) ;;
      cb <- at_offset (storage a) (size_ a - csize) ;;
      c <- data_deserialize LC cb ;;
      let cc := calc (firstn (Z.to_nat (size_ a - csize)) (storage a)) in
      Ok (Out (Some h) (Some f) (crc_eqb c cc) variable_part (Some (hsize + fsize))).

  (** deserialize_no_check (178-191): offsets of header, fields, data, and the count. *)
  Definition acc_no_check (a : accessor) : Z * Z * Z * Z :=
    (0, hsize, u64 (size_ a - fixed) / tsize, hsize + fsize).
End Packet.
Arguments r_header {H F}. Arguments r_fields {H F}. Arguments r_valid {H F}. Arguments r_size {H F}. Arguments r_data {H F}.
Arguments Out {H F}.
