(** Vocabulary for the data.hpp properties. *)
From Verif Require Export DataModel.

(** The values of each width. *)
Definition fits (w : width) (v : Z) : Prop := 0 <= v < 256 ^ Z.of_nat (wbytes w).
(** Numbers written as bytes, least and most significant byte first. *)
Definition little_endian (bs : list Z) : Z := fold_right (fun b acc => b + 256 * acc) 0 bs.
Definition big_endian (bs : list Z) : Z := fold_left (fun acc b => 256 * acc + b) bs 0.
