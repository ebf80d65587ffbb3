(** Vocabulary for a heap shared by threads. *)
From Verif Require Export HeapShareModel HeapSpec.

(** Threads about to make the given calls, nothing returned yet. *)
Definition begin (c : cfg) (h : heap) (progs : list (list hcall)) : hworld :=
  HW h (map (thread c) progs) [].

(** A thread's next access: which place, and whether it writes. *)
Inductive place := PWord (a : Z) | PField (f : fld).
Definition next_access (d : code) : option (place * bool) :=
  match d with
  | Rd a _ => Some (PWord a, false)
  | Wr a _ _ => Some (PWord a, true)
  | Get f _ => Some (PField f, false)
  | Put f _ _ => Some (PField f, true)
  | _ => None
  end.
(** Two threads are about to access the same place, one of them to write it: a data race. *)
Definition racing (w : hworld) (i j : nat) : Prop :=
  i <> j /\ exists d e p b, nth_error (w_threads w) i = Some d /\ nth_error (w_threads w) j = Some e /\
    next_access d = Some (p, b) /\ next_access e = Some (p, true).

(** The effect of one call made alone. *)
Definition alone (c : cfg) (h : heap) (x : hcall) : res (heap * Z) :=
  match x with
  | HAlloc n => allocate c h n
  | HFree p => h' <- deallocate c h p ;; Ok (h', 0)
  end.
