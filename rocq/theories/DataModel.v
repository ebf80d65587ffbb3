(** Model of include/xitren/func/data.hpp. *)
From Verif Require Export BaseLemmas.

(** Byte order of the host; the object representation of an unsigned [n]-byte integer. *)
Inductive host := Little | Big.
Definition encode (e : host) (n : nat) (v : Z) : list Z :=
  match e with Little => le_bytes n v | Big => rev (le_bytes n v) end.
Definition decode (e : host) (l : list Z) : Z :=
  match e with Little => le_val l | Big => le_val (rev l) end.

(** std::copy of numbers into an array of std::uint8_t: element by element, each converted. *)
Fixpoint copy_convert (src dst : list Z) : list Z :=
  match src, dst with
  | x :: s, _ :: d => (x mod 256) :: copy_convert s d
  | _, _ => dst
  end.
(** is_lsb (data.hpp:28-35): the source range is one std::uint16_t. *)
Definition is_lsb (e : host) : bool := nth 0 (copy_convert [13090] [0; 0]) 0 =? 34.

(** std::swap(l.pure[i], l.pure[j]). *)
Fixpoint put_nth (l : list Z) (i : nat) (x : Z) : list Z :=
  match l, i with
  | [], _ => []
  | _ :: r, O => x :: r
  | y :: r, S k => y :: put_nth r k x
  end.
Definition swap_at (i j : nat) (l : list Z) : list Z :=
  put_nth (put_nth l i (nth j l 0)) j (nth i l 0).

(** The three swap overloads (101-107, 114-121, 128-137). *)
Definition swap16 (e : host) (v : Z) : Z := decode e (swap_at 0 1 (encode e 2 v)).
Definition swap32 (e : host) (v : Z) : Z := decode e (swap_at 1 2 (swap_at 0 3 (encode e 4 v))).
Definition swap64 (e : host) (v : Z) : Z :=
  decode e (swap_at 3 4 (swap_at 2 5 (swap_at 1 6 (swap_at 0 7 (encode e 8 v))))).

(** concept swappable (139-140): the three widths. *)
Inductive width := W16 | W32 | W64b.
Definition wbytes (w : width) : nat := match w with W16 => 2 | W32 => 4 | W64b => 8 end.
Definition swap (e : host) (w : width) (v : Z) : Z :=
  match w with W16 => swap16 e v | W32 => swap32 e v | W64b => swap64 e v end.

(** lsb_t (142-293): [value_]; both converting constructors and operator= store the same. *)
Definition lsb_default : Z := 0.                                                        (* 153, 292 *)
Definition lsb_make (e : host) (w : width) (v : Z) : Z := if is_lsb e then v else swap e w v.   (* 163-187 *)
Definition lsb_get (e : host) (w : width) (x : Z) : Z := if is_lsb e then x else swap e w x.    (* 197-205 *)
Definition lsb_assign (e : host) (w : width) (x v : Z) : Z := if is_lsb e then v else swap e w v. (* 216-225 *)
Definition lsb_eq e w x y : bool := lsb_get e w x =? lsb_get e w y.                     (* 233-237 *)
Definition lsb_lt e w x y : bool := lsb_get e w x <? lsb_get e w y.                     (* 245-249 *)
Definition lsb_gt e w x y : bool := lsb_get e w x >? lsb_get e w y.                     (* 257-261 *)
Definition lsb_le e w x y : bool := lsb_get e w x <=? lsb_get e w y.                    (* 269-273 *)
Definition lsb_ge e w x y : bool := lsb_get e w x >=? lsb_get e w y.                    (* 282-286 *)

(** msb_t (295-446). *)
Definition msb_default : Z := 0.                                                        (* 306, 445 *)
Definition msb_make (e : host) (w : width) (v : Z) : Z := if is_lsb e then swap e w v else v.   (* 316-340 *)
Definition msb_get (e : host) (w : width) (x : Z) : Z := if is_lsb e then swap e w x else x.    (* 350-358 *)
Definition msb_assign (e : host) (w : width) (x v : Z) : Z := if is_lsb e then swap e w v else v. (* 369-378 *)
Definition msb_eq e w x y : bool := msb_get e w x =? msb_get e w y.                     (* 386-390 *)
Definition msb_lt e w x y : bool := msb_get e w x <? msb_get e w y.                     (* 398-402 *)
Definition msb_gt e w x y : bool := msb_get e w x >? msb_get e w y.                     (* 410-414 *)
Definition msb_le e w x y : bool := msb_get e w x <=? msb_get e w y.                    (* 422-426 *)
Definition msb_ge e w x y : bool := msb_get e w x >=? msb_get e w y.                    (* 435-439 *)

(** The bytes of such an object in memory (the class is packed: value_ alone). *)
Definition memory_bytes (e : host) (w : width) (x : Z) : list Z := encode e (wbytes w) x.
(** [value_] of an object received as those bytes (read through data<lsb_t<T>>::deserialize
    or as a member of a received struct). *)
Definition object_of_bytes (e : host) (bs : list Z) : Z := decode e bs.

(** ** data<Type> (37-94)
    A trivially copyable type: a size, the object representation of each value, and the
    value of each byte string. *)
Record layout (T : Type) := Layout {
  l_size : nat;
  l_bytes : T -> list Z;
  l_value : list Z -> T;
  l_len : forall x, length (l_bytes x) = l_size;
  l_byte : forall x b, In b (l_bytes x) -> 0 <= b < 256;
  l_of_to : forall x, l_value (l_bytes x) = x
}.
Arguments l_size {T}. Arguments l_bytes {T}. Arguments l_value {T}.
Arguments l_len {T}. Arguments l_byte {T}. Arguments l_of_to {T}.

(** Reading [n] bytes at [begin], where [src] is what lies there up to the end of the object. *)
Definition read_bytes (n : nat) (src : list Z) : res (list Z) :=
  if (length src <? n)%nat then UB else Ok (firstn n src).
(** Writing bytes at the front of [dst]. *)
Definition write_bytes (b dst : list Z) : res (list Z) :=
  if (length dst <? length b)%nat then UB else Ok (b ++ skipn (length b) dst).

(** deserialize (59-66). *)
Definition data_deserialize {T} (L : layout T) (src : list Z) : res T :=
  b <- read_bytes (l_size L) src ;; Ok (l_value L b).
(** serialize (74-79) and serialize into an iterator (87-93). *)
Definition data_serialize {T} (L : layout T) (x : T) : list Z := l_bytes L x.
Definition data_serialize_to {T} (L : layout T) (x : T) (dst : list Z) : res (list Z) := write_bytes (l_bytes L x) dst.
