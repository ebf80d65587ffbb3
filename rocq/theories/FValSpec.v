(** Vocabulary for floating-point value observables. *)
From Verif Require Export FValModel ValuesSpec.

(** double and float. *)
Definition fty_ok (t : fty) : Prop := t = f64 \/ t = f32.

(** [x] is the integer [z] exactly: m * 2^e = z, written without fractions. *)
Definition is_int (x : spec_float) (z : Z) : Prop :=
  match x with
  | S754_zero s => s = false /\ z = 0
  | S754_finite s m e => exists d, 0 <= d /\ 0 <= e + d /\ (if s then - Zpos m else Zpos m) * 2 ^ (e + d) = z * 2 ^ d
  | _ => False
  end.

(** The number of type T equal to an integer of at most [f_prec] bits. *)
Definition exactly (t : fty) (z : Z) (x : spec_float) : Prop :=
  valid_binary (f_prec t) (f_emax t) x = true /\ is_int x z.

(** What an operator adds. *)
Definition fincrement (o : fop) : Z :=
  match o with
  | FAssign _ => 0 | FAddEq n => n | FSubEq n => - n
  | FPreInc | FPostInc => 1 | FPreDec | FPostDec => -1
  end.
Definition fis_rmw (o : fop) : Prop := match o with FAssign _ => False | _ => True end.
Definition fincrements (l : list fop) : Z := sum (map fincrement l).

(** The operators whose result is published as it should be. *)
Definition ffaithful (o : fop) : bool :=
  match o with FAssign _ | FAddEq _ | FSubEq _ | FPreInc => true | _ => false end.

(** [n] is [d] with its fraction dropped: |n| <= |d| < |n| + 1 with the sign of d, written
    without fractions. *)
Definition drops_to (d : spec_float) (n : Z) : Prop :=
  match d with
  | S754_zero _ => n = 0
  | S754_finite s m e =>
    (exists k, 0 <= k /\ 0 <= e + k /\ Z.abs n * 2 ^ k <= Zpos m * 2 ^ (e + k) < (Z.abs n + 1) * 2 ^ k) /\
    (if s then n <= 0 else 0 <= n)
  | _ => False
  end.
