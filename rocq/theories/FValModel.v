(** values::observable<T> (include/xitren/comm/values/observable.hpp) for a floating-point T
    (std::atomic<T>::fetch_add exists for those since C++20), and operands of += and -= that
    are not ints.  Floating-point numbers are those of the standard library's SpecFloat (IEEE
    754, rounding to nearest, ties to even).  Simplified: expressions of type T are evaluated
    in T (FLT_EVAL_METHOD 0), the rounding mode is not changed, and the registered observeds
    stay the same (registration does not depend on T; see ValuesModel). *)
From Coq Require Export SpecFloat.
From Verif Require Export ValuesModel.

(** The format of T: bits of precision, exponent of the infinities. *)
Record fty := { f_prec : Z; f_emax : Z }.
Definition f64 : fty := {| f_prec := 53; f_emax := 1024 |}.   (* double *)
Definition f32 : fty := {| f_prec := 24; f_emax := 128 |}.    (* float *)

(** Conversion of an integer to T: rounded. *)
Definition of_int (t : fty) (n : Z) : spec_float := binary_normalize (f_prec t) (f_emax t) n 0 false.
Definition fadd (t : fty) := SFadd (f_prec t) (f_emax t).
Definition fsub (t : fty) := SFsub (f_prec t) (f_emax t).

(** The operators (44-50, 60-66, 76-82, 92-98, 108-114, 124-130, 140-146; 290-392). *)
Inductive fop :=
| FAssign (v : spec_float)   (* operator=(observable_type) *)
| FAddEq (n : Z)             (* operator+=(int) *)
| FSubEq (n : Z)             (* operator-=(int) *)
| FPreInc | FPreDec | FPostInc | FPostDec.

(** std::atomic<T>::fetch_add/fetch_sub/store: the int argument is converted to T. *)
Definition fapply (t : fty) (x : spec_float) (o : fop) : spec_float :=
  match o with
  | FAssign v => v
  | FAddEq n => fadd t x (of_int t n)
  | FSubEq n => fsub t x (of_int t n)
  | FPreInc | FPostInc => fadd t x (of_int t 1)
  | FPreDec | FPostDec => fsub t x (of_int t 1)
  end.
(** What is passed to notify_observers and returned. *)
Definition fpublished (t : fty) (x : spec_float) (o : fop) : spec_float :=
  match o with
  | FAssign v => v                                 (* 140-146 *)
  | FAddEq n => fadd t x (of_int t n)              (* fetch_add(op) + op *)
  | FSubEq n => fsub t x (of_int t n)              (* fetch_sub(op) - op *)
  | FPreInc => fadd t x (of_int t 1)               (* fetch_add(1) + 1 *)
  | FPreDec => fadd t x (of_int t 1)               (* line 95: fetch_sub(1) + 1 *)
  | FPostInc | FPostDec => x                       (* 44-50, 60-66 *)
  end.

(** The value and the contents of the observeds (observed.hpp:74-81). *)
Record fworld := FW { f_val : spec_float; f_mirror : addr -> spec_float }.
Definition fset (m : addr -> spec_float) (o : addr) (n : spec_float) : addr -> spec_float :=
  fun a => if Pos.eqb a o then n else m a.
(** One operator: the new state and the result. *)
Definition frun (t : fty) (obs : list addr) (w : fworld) (o : fop) : fworld * spec_float :=
  let p := fpublished t (f_val w) o in
  (FW (fapply t (f_val w) o) (fold_left (fun m a => fset m a p) obs (f_mirror w)), p).
Fixpoint frun_all (t : fty) (obs : list addr) (w : fworld) (l : list fop) : fworld :=
  match l with
  | [] => w
  | o :: rest => frun_all t obs (fst (frun t obs w o)) rest
  end.

(** Threads, each with the operators it applies; one step is one atomic update (the stores to
    the observeds do not change the value). *)
Fixpoint fput (l : list (list fop)) (i : nat) (x : list fop) : list (list fop) :=
  match l, i with
  | [], _ => []
  | _ :: rest, O => x :: rest
  | y :: rest, S j => y :: fput rest j x
  end.
Fixpoint fsched (t : fty) (x : spec_float) (progs : list (list fop)) (s : list nat) : spec_float * list (list fop) :=
  match s with
  | [] => (x, progs)
  | i :: rest =>
    match nth_error progs i with
    | Some (o :: p) => fsched t (fapply t x o) (fput progs i p) rest
    | _ => fsched t x progs rest
    end
  end.

(** ** operands *)
(** What a caller may write on the right of += or -=: an integer of any type, or a double.
    operator+=(int) (108-114) converts it to int first: integers modulo 2^32, doubles
    towards zero, undefined when the result is not an int. *)
Inductive operand := OInt (z : Z) | ODouble (d : spec_float).
Definition truncate (d : spec_float) : option Z :=
  match d with
  | S754_zero _ => Some 0
  | S754_finite s m e => Some (cond_Zopp s (if 0 <=? e then Zpos m * 2 ^ e else Zpos m / 2 ^ (- e)))
  | _ => None
  end.
Definition to_int (a : operand) : res Z :=
  match a with
  | OInt z => Ok (conv {| i_bits := 32; i_signed := true |} z)
  | ODouble d =>
    match truncate d with
    | Some z => if (- 2 ^ 31 <=? z) && (z <? 2 ^ 31) then Ok z else UB
    | None => UB
    end
  end.
(** x += a and x -= a for an integer T, and for a floating-point one. *)
Definition vplus (t : ity) (Max : Z) (upd : list vev -> addr -> Z -> vbody) (disc : list vev -> addr -> vbody)
           (f : nat) (w : vworld) (a : operand) : res (vworld * vres) :=
  n <- to_int a ;; vrun t Max upd disc f w (VOp (AddEq n)).
Definition vminus (t : ity) (Max : Z) (upd : list vev -> addr -> Z -> vbody) (disc : list vev -> addr -> vbody)
           (f : nat) (w : vworld) (a : operand) : res (vworld * vres) :=
  n <- to_int a ;; vrun t Max upd disc f w (VOp (SubEq n)).
Definition fplus (t : fty) (obs : list addr) (w : fworld) (a : operand) : res (fworld * spec_float) :=
  n <- to_int a ;; Ok (frun t obs w (FAddEq n)).
