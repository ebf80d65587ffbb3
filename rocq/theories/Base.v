(** Shared vocabulary: outcomes, 64-bit arithmetic, byte memory. *)
From Coq Require Export ZArith List Lia Bool.
From Coq Require Export ZifyBool ZifyNat.
Export ListNotations.
Open Scope Z_scope.

(** Outcome of a piece of C++ code.
    [UB]   : undefined behaviour was reached (access outside an object,
             misaligned access, signed overflow, flowing off the end of a
             value-returning function, ...).
    [Fuel] : the model's loop bound was exhausted; theorems exclude it. *)
Inductive res (A : Type) : Type :=
| Ok (a : A)
| UB
| Fuel.
Arguments Ok {A} a.
Arguments UB {A}.
Arguments Fuel {A}.

Definition bind {A B} (x : res A) (f : A -> res B) : res B :=
  match x with Ok a => f a | UB => UB | Fuel => Fuel end.
Notation "x <- e ;; k" := (bind e (fun x => k))
  (at level 61, e at next level, right associativity).
Notation "' p <- e ;; k" := (bind e (fun p => k))
  (at level 61, p pattern, e at next level, right associativity).

(** std::size_t on the modelled target: 64 bits, arithmetic modulo 2^64. *)
Definition W64 : Z := 2 ^ 64.
Definition u64 (x : Z) : Z := x mod W64.

(** Byte memory. *)
Definition memory := Z -> Z.

Definition upd (m : memory) (a v : Z) : memory :=
  fun x => if x =? a then v else m x.

(** Little-endian encoding of an integer in [n] bytes. *)
Fixpoint le_bytes (n : nat) (v : Z) : list Z :=
  match n with
  | O => []
  | S k => (v mod 256) :: le_bytes k (v / 256)
  end.

Fixpoint le_val (l : list Z) : Z :=
  match l with
  | [] => 0
  | b :: t => b + 256 * le_val t
  end.

(** 64-bit word at address [a]. *)
Definition rd (m : memory) (a : Z) : Z :=
  le_val [m a; m (a+1); m (a+2); m (a+3); m (a+4); m (a+5); m (a+6); m (a+7)].

Definition wr (m : memory) (a v : Z) : memory :=
  fun x => if (a <=? x) && (x <? a + 8)
           then nth (Z.to_nat (x - a)) (le_bytes 8 v) 0
           else m x.
