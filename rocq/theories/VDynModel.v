(** values::observable<T,0> (include/xitren/comm/values/observable.hpp:269-500) used by several
    threads, with the std::vector it keeps its observeds in as in libstdc++: the members
    _M_start, _M_finish and _M_end_of_storage and an array on the heap, replaced by one of twice
    the size when it is full.  Only the values are atomic.  A call is a sequence of single
    accesses in the order of the source; the accesses of different threads interleave.
    Simplified: accesses are taken in some global order; while the array is replaced
    the members are read once; memory never runs out; an observed's function is called in the
    step in which it stores the value, does not change, and does not use the observable. *)
From Verif Require Export ValuesModel.

(** A pointer: an array and an index. *)
Definition dptr : Type := (nat * nat)%type.
Definition deq (p q : dptr) : bool := (fst p =? fst q)%nat && (snd p =? snd q)%nat.
(** The value; the vector's members; the arrays, None when freed.  Array 0 stands for the null
    pointer: it has no elements and freeing it does nothing.  The observeds' values. *)
Record dmem := DM { d_val : Z; d_start : nat; d_fin : dptr; d_end : dptr; d_heap : list (option (list ptr)); d_mirror : addr -> Z }.

(** What a thread still has to do, one access after the other. *)
Inductive dcode :=
| DStop
| DBad                                          (* undefined *)
| DStart (k : nat -> dcode)                     (* reads _M_start *)
| DFin (k : dptr -> dcode)                      (* reads _M_finish *)
| DEnd (k : dptr -> dcode)                      (* reads _M_end_of_storage *)
| DSetStart (b : nat) (k : dcode)
| DSetFin (p : dptr) (k : dcode)
| DSetEnd (p : dptr) (k : dcode)
| DGet (p : dptr) (k : ptr -> dcode)            (* reads an element *)
| DPut (p : dptr) (x : ptr) (k : dcode)         (* writes an element *)
| DNew (n : nat) (k : nat -> dcode)             (* allocates an array *)
| DFree (b : nat) (k : dcode)                   (* frees an array *)
| DUpd (op : vop) (k : Z -> dcode)              (* the atomic operation; goes on with the old value *)
| DTell (o : addr) (n : Z) (k : dcode)          (* notification (observed.hpp:58-62, 74-81) *)
| DDis (o : addr) (k : dcode)                   (* disconnect (observed.hpp:69-71) *)
| DOut (c : vcall) (r : vres) (k : dcode).      (* a call returns *)

(** Which plain variable the next step accesses, and whether it writes it. *)
Inductive dplace := XStart | XFin | XEnd | XCell (p : dptr).
Definition dtouches (d : dcode) : option (dplace * bool) :=
  match d with
  | DStart _ => Some (XStart, false)
  | DFin _ => Some (XFin, false)
  | DEnd _ => Some (XEnd, false)
  | DSetStart _ _ => Some (XStart, true)
  | DSetFin _ _ => Some (XFin, true)
  | DSetEnd _ _ => Some (XEnd, true)
  | DGet p _ => Some (XCell p, false)
  | DPut p _ _ => Some (XCell p, true)
  | _ => None
  end.

(** begin() and end() of a range; iterators into different arrays make no range. *)
Definition d_range (k : nat -> nat -> dcode) : dcode :=
  DStart (fun b => DFin (fun e => if (fst e =? b)%nat then k b (snd e) else DBad)).
(** std::find. *)
Fixpoint d_find (o : addr) (b i rem : nat) (k : nat -> dcode) : dcode :=
  match rem with
  | O => k i
  | S q => DGet (b, i) (fun x => if points_to x o then k i else d_find o b (S i) q k)
  end.
(** The second half of std::remove. *)
Fixpoint d_move (o : addr) (b r i rem : nat) (k : nat -> dcode) : dcode :=
  match rem with
  | O => k r
  | S q => DGet (b, i) (fun x => if points_to x o then d_move o b r (S i) q k
                                 else DPut (b, r) x (d_move o b (S r) (S i) q k))
  end.
(** The elements go to the new array. *)
Fixpoint d_copy (b nb i rem : nat) (k : dcode) : dcode :=
  match rem with
  | O => k
  | S q => DGet (b, i) (fun x => DPut (nb, i) x (d_copy b nb (S i) q k))
  end.
(** vector::_M_realloc_insert at the end: twice the size, at least 1. *)
Definition d_grow (o : addr) (k : dcode) : dcode :=
  d_range (fun b n => let cap := (n + Nat.max n 1)%nat in
  DNew cap (fun nb => DPut (nb, n) (Some o) (d_copy b nb 0 n
  (DFree b (DSetStart nb (DSetFin (nb, S n) (DSetEnd (nb, cap) k))))))).
(** vector::emplace_back. *)
Definition d_push (o : addr) (k : dcode) : dcode :=
  DFin (fun e => DEnd (fun c =>
  if deq e c then d_grow o k
  else DFin (fun p => DPut p (Some o) (DFin (fun p => DSetFin (fst p, S (snd p)) k))))).
(** add_observer (419-428), contains (494-499). *)
Definition d_add (o : addr) (k : err -> dcode) : dcode :=
  d_range (fun b n => d_find o b 0 n (fun f => DFin (fun e =>
  if deq (b, f) e then d_push o (k ok) else k already_contains))).
(** remove_observer (438-450): nothing is erased. *)
Definition d_remove (o : addr) (k : err -> dcode) : dcode :=
  DStart (fun b => DFin (fun e => if deq (b, 0%nat) e then k not_found else
  d_range (fun b n =>
  let done r := DFin (fun e => if deq (b, r) e then k not_found else k ok) in
  d_find o b 0 n (fun f => if (f =? n)%nat then done n else d_move o b f (S f) (n - S f) done)))).
(** clear_observers (455-462), vector::clear. *)
Fixpoint d_disc (b i rem : nat) (k : dcode) : dcode :=
  match rem with
  | O => k
  | S q => DGet (b, i) (fun x => match x with None => DBad | Some o => DDis o (d_disc b (S i) q k) end)
  end.
Definition d_clear (k : dcode) : dcode :=
  d_range (fun b n => d_disc b 0 n
  (DStart (fun b => DFin (fun e => if deq (b, 0%nat) e then k else DSetFin (b, 0%nat) k)))).
(** notify_observers (472-479). *)
Fixpoint d_tell (v : Z) (b i rem : nat) (k : dcode) : dcode :=
  match rem with
  | O => k
  | S q => DGet (b, i) (fun x => match x with None => DBad | Some o => DTell o v (d_tell v b (S i) q k) end)
  end.
Definition d_notify (v : Z) (k : dcode) : dcode := d_range (fun b n => d_tell v b 0 n k).

Section Dyn.
  Variable t : ity.

  (** The calls; the operators 282-392. *)
  Definition d_call (c : vcall) (k : dcode) : dcode :=
    match c with
    | VAdd o => d_add o (fun e => DOut c (RErr e) k)
    | VRemove o => d_remove o (fun e => DOut c (RErr e) k)
    | VClear => d_clear (DOut c RUnit k)
    | VNotify n => d_notify (conv t n) (DOut c (RErr ok) k)
    | VOp op => DUpd op (fun x => match published t x op with Ok p => d_notify p (DOut c (RVal p) k) | _ => DBad end)
    end.
  Definition d_prog (l : list vcall) : dcode := fold_right d_call DStop l.

  (** An array that is there. *)
  Definition d_array (m : dmem) (b : nat) : res (list ptr) :=
    match nth_error (d_heap m) b with Some (Some a) => Ok a | _ => UB end.
  Fixpoint d_store (h : list (option (list ptr))) (b : nat) (a : option (list ptr)) : list (option (list ptr)) :=
    match h, b with
    | [], _ => []
    | _ :: r, O => a :: r
    | x :: r, S q => x :: d_store r q a
    end.
  Definition with_heap (m : dmem) (h : list (option (list ptr))) : dmem := DM (d_val m) (d_start m) (d_fin m) (d_end m) h (d_mirror m).

  (** One access. *)
  Definition dstep (m : dmem) (d : dcode) : res (dmem * dcode * list vev) :=
    match d with
    | DStop => Ok (m, DStop, [])
    | DBad => UB
    | DStart k => Ok (m, k (d_start m), [])
    | DFin k => Ok (m, k (d_fin m), [])
    | DEnd k => Ok (m, k (d_end m), [])
    | DSetStart b k => Ok (DM (d_val m) b (d_fin m) (d_end m) (d_heap m) (d_mirror m), k, [])
    | DSetFin p k => Ok (DM (d_val m) (d_start m) p (d_end m) (d_heap m) (d_mirror m), k, [])
    | DSetEnd p k => Ok (DM (d_val m) (d_start m) (d_fin m) p (d_heap m) (d_mirror m), k, [])
    | DGet (b, i) k => a <- d_array m b ;; x <- slot a i ;; Ok (m, k x, [])
    | DPut (b, i) x k => a <- d_array m b ;; a' <- put_slot a i x ;; Ok (with_heap m (d_store (d_heap m) b (Some a')), k, [])
    | DNew n k => Ok (with_heap m (d_heap m ++ [Some (repeat None n)]), k (length (d_heap m)), [])
    | DFree b k =>
      _ <- d_array m b ;;
      if (b =? 0)%nat then Ok (m, k, []) else Ok (with_heap m (d_store (d_heap m) b None), k, [])
    | DUpd op k => Ok (DM (apply_atomic t (d_val m) op) (d_start m) (d_fin m) (d_end m) (d_heap m) (d_mirror m), k (d_val m), [Applied op])
    | DTell o n k => Ok (DM (d_val m) (d_start m) (d_fin m) (d_end m) (d_heap m) (set_mirror (d_mirror m) o n), k, [Store o n])
    | DDis o k => Ok (m, k, [VDisc o])
    | DOut c r k => Ok (m, k, [VRet c r])
    end.

  Record dworld := DWd { d_mem : dmem; d_thr : nat -> dcode; d_log : list (nat * vev) }.
  Definition dput (f : nat -> dcode) (i : nat) (d : dcode) : nat -> dcode := fun a => if (a =? i)%nat then d else f a.
  Definition dmove (w : dworld) (i : nat) : res dworld :=
    ' (m, d, es) <- dstep (d_mem w) (d_thr w i) ;; Ok (DWd m (dput (d_thr w) i d) (d_log w ++ map (pair i) es)).
  Fixpoint drun (w : dworld) (s : list nat) : res dworld :=
    match s with
    | [] => Ok w
    | i :: rest => w' <- dmove w i ;; drun w' rest
    end.
  (** Thread [i] makes the calls [progs i]. *)
  Definition dstarted (m : dmem) (progs : nat -> list vcall) : dworld := DWd m (fun i => d_prog (progs i)) [].
End Dyn.
(** A new observable: the vector is empty, its pointers null. *)
Definition dnew (mi : addr -> Z) : dmem := DM 0 0 (0, 0)%nat (0, 0)%nat [Some []] mi.
