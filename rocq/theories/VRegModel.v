(** values::observable<T,Max> (include/xitren/comm/values/observable.hpp:22-267) and its observeds
    (values/observed.hpp) when threads register, remove and clear observeds, and set the
    observeds' functions, while others use the operators.  Only the values are atomic: count_,
    observers_ and function_ are plain members.  A call is a sequence of single accesses, in the
    order of the source; the accesses of different threads interleave.  Simplified: accesses are
    taken in some global order (formally unsynchronised conflicting ones are undefined already,
    see [touches]); function_ is read and written as a whole; the observeds' functions and
    disconnect() use neither the observable nor the observeds. *)
From Verif Require Export ValuesModel.

(** The value, observers_, count_ (23, 245-249); of each observed its value and function_
    (observed.hpp:23, 84) with how often it has been set. *)
Record rmem := RM { r_val : Z; r_slots : list ptr; r_cnt : nat; r_mirror : addr -> Z;
                    r_fun : addr -> option nat; r_set : addr -> nat }.

(** The calls of ValuesModel, and observed [o].on_update(f) (observed.hpp:35-39). *)
Inductive rcall := RC (c : vcall) | RFun (o : addr) (f : option nat).

(** What is seen: the atomic update; [o] stores [n]; its function [f] is called; disconnect();
    a call returns. *)
Inductive rvev :=
| RApplied (op : vop)
| RStored (o : addr) (n : Z)
| RCalled (o : addr) (f : nat) (n : Z)
| RDisced (o : addr)
| RRet (c : rcall) (r : vres).

(** What a thread still has to do, one access after the other. *)
Inductive rcode :=
| RStop
| RBad                                        (* undefined *)
| RCnt (k : nat -> rcode)                     (* reads count_ *)
| RSetCnt (n : nat) (k : rcode)               (* writes count_ *)
| RSlot (i : nat) (k : ptr -> rcode)          (* reads observers_[i] *)
| RSetSlot (i : nat) (p : ptr) (k : rcode)    (* writes observers_[i] *)
| RUpd (op : vop) (k : Z -> rcode)            (* the atomic operation; goes on with the old value *)
| RKeep (o : addr) (n : Z) (k : rcode)        (* observed's atomic store (observed.hpp:77) *)
| RHas (o : addr) (k : bool -> rcode)         (* if (function_) (observed.hpp:78) *)
| RGo (o : addr) (n : Z) (k : nat -> rcode)   (* function_(nd) begins (observed.hpp:79) *)
| RBack (o : addr) (v : nat) (k : rcode)      (* and ends *)
| RSetFun (o : addr) (f : option nat) (k : rcode)   (* function_ = function (observed.hpp:38) *)
| RDis (o : addr) (k : rcode)                 (* disconnect (observed.hpp:69-71) *)
| ROut (c : rcall) (r : vres) (k : rcode).    (* a call returns *)

(** Which plain member the next step accesses, and whether it writes it. *)
Inductive rplace := QCount | QSlot (i : nat) | QFun (o : addr).
Definition touches (d : rcode) : option (rplace * bool) :=
  match d with
  | RCnt _ => Some (QCount, false)
  | RSetCnt _ _ => Some (QCount, true)
  | RSlot i _ => Some (QSlot i, false)
  | RSetSlot i _ _ => Some (QSlot i, true)
  | RHas o _ | RGo o _ _ => Some (QFun o, false)
  | RSetFun o _ _ => Some (QFun o, true)
  | _ => None
  end.

Section Reg.
  Variable t : ity.
  Variable Max : Z.

  (** contains (258-266). *)
  Fixpoint scan_code (o : addr) (i rem : nat) (yes no : rcode) : rcode :=
    match rem with
    | O => no
    | S q => RSlot i (fun x => if points_to x o then yes else scan_code o (S i) q yes no)
    end.
  (** add_observer (173-184): count_++ reads and writes count_ before the slot is written. *)
  Definition add_code (o : addr) (k : err -> rcode) : rcode :=
    RCnt (fun n =>
    if (max_observers Max <=? n)%nat then k list_is_full
    else RCnt (fun n =>
         scan_code o 0 n (k already_contains)
           (RCnt (fun v => RSetCnt (S v) (RSetSlot v (Some o) (k ok)))))).

  (** remove_observer (194-208), with std::remove written out. *)
  Definition left_code (r : nat) (k : err -> rcode) : rcode :=
    RCnt (fun n => if (n - r =? 0)%nat then k not_found else RSetCnt r (k ok)).
  Fixpoint move_code (o : addr) (r i rem : nat) (k : err -> rcode) : rcode :=
    match rem with
    | O => left_code r k
    | S q => RSlot i (fun x => if points_to x o then move_code o r (S i) q k
                               else RSetSlot r x (move_code o (S r) (S i) q k))
    end.
  Fixpoint find_code (o : addr) (i rem : nat) (k : err -> rcode) : rcode :=
    match rem with
    | O => left_code i k
    | S q => RSlot i (fun x => if points_to x o then move_code o i (S i) q k else find_code o (S i) q k)
    end.
  Definition remove_code (o : addr) (k : err -> rcode) : rcode :=
    RCnt (fun n => if (max_observers Max <? n)%nat then k internal_data_broken
    else RCnt (fun n => if (n =? 0)%nat then k not_found
    else RCnt (fun n => find_code o 0 n k))).

  (** clear_observers (213-220). *)
  Fixpoint disc_code (i rem : nat) (k : rcode) : rcode :=
    match rem with
    | O => RSetCnt 0 k
    | S q => RSlot i (fun x => match x with None => RBad | Some o => RDis o (disc_code (S i) q k) end)
    end.
  Definition clear_code (k : rcode) : rcode := RCnt (fun n => disc_code 0 n k).

  (** notify_observers (230-239); notification, data (observed.hpp:58-62, 74-81). *)
  Definition data_code (o : addr) (v : Z) (k : rcode) : rcode :=
    RKeep o v (RHas o (fun b => if b then RGo o v (fun g => RBack o g k) else k)).
  Fixpoint tell_code (v : Z) (i rem : nat) (k : rcode) : rcode :=
    match rem with
    | O => k
    | S q => RSlot i (fun x => match x with None => RBad | Some o => data_code o v (tell_code v (S i) q k) end)
    end.
  Definition notify_code (v : Z) (k : err -> rcode) : rcode :=
    RCnt (fun n => if (max_observers Max <? n)%nat then k internal_data_broken
    else RCnt (fun n => tell_code v 0 n (k ok))).

  (** The operators (36-146). *)
  Definition op_code (op : vop) (k : Z -> rcode) : rcode :=
    RUpd op (fun x => match published t x op with Ok p => notify_code p (fun _ => k p) | _ => RBad end).

  Definition call_code (c : rcall) (k : rcode) : rcode :=
    match c with
    | RC (VAdd o) => add_code o (fun e => ROut c (RErr e) k)
    | RC (VRemove o) => remove_code o (fun e => ROut c (RErr e) k)
    | RC VClear => clear_code (ROut c RUnit k)
    | RC (VNotify n) => notify_code (conv t n) (fun e => ROut c (RErr e) k)
    | RC (VOp op) => op_code op (fun p => ROut c (RVal p) k)
    | RFun o f => RSetFun o f (ROut c RUnit k)
    end.
  Definition prog (l : list rcall) : rcode := fold_right call_code RStop l.

  (** Outcomes: [RDead] - the program was ended: calling an empty std::function throws
      bad_function_call, and notification is noexcept. *)
  Inductive rout (A : Type) := ROk (a : A) | RUndef | RDead.
  Arguments ROk {A} a. Arguments RUndef {A}. Arguments RDead {A}.

  (** One access. *)
  Definition rstep (m : rmem) (d : rcode) : rout (rmem * rcode * list rvev) :=
    match d with
    | RStop => ROk (m, RStop, [])
    | RBad => RUndef
    | RCnt k => ROk (m, k (r_cnt m), [])
    | RSetCnt n k => ROk (RM (r_val m) (r_slots m) n (r_mirror m) (r_fun m) (r_set m), k, [])
    | RSlot i k => match slot (r_slots m) i with Ok x => ROk (m, k x, []) | _ => RUndef end
    | RSetSlot i p k =>
      match put_slot (r_slots m) i p with
      | Ok a => ROk (RM (r_val m) a (r_cnt m) (r_mirror m) (r_fun m) (r_set m), k, [])
      | _ => RUndef
      end
    | RUpd op k =>
      ROk (RM (apply_atomic t (r_val m) op) (r_slots m) (r_cnt m) (r_mirror m) (r_fun m) (r_set m), k (r_val m), [RApplied op])
    | RKeep o n k =>
      ROk (RM (r_val m) (r_slots m) (r_cnt m) (set_mirror (r_mirror m) o n) (r_fun m) (r_set m), k, [RStored o n])
    | RHas o k => ROk (m, k (match r_fun m o with Some _ => true | None => false end), [])
    | RGo o n k => match r_fun m o with Some f => ROk (m, k (r_set m o), [RCalled o f n]) | None => RDead end
    | RBack o v k => if (r_set m o =? v)%nat then ROk (m, k, []) else RUndef    (* the running function was destroyed *)
    | RSetFun o f k =>
      ROk (RM (r_val m) (r_slots m) (r_cnt m) (r_mirror m) (fun a => if Pos.eqb a o then f else r_fun m a)
              (fun a => if Pos.eqb a o then S (r_set m a) else r_set m a), k, [])
    | RDis o k => ROk (m, k, [RDisced o])
    | ROut c r k => ROk (m, k, [RRet c r])
    end.

  Record rworld := RWd { r_mem : rmem; r_thr : nat -> rcode; r_log : list (nat * rvev) }.
  Definition rput (f : nat -> rcode) (i : nat) (d : rcode) : nat -> rcode := fun a => if (a =? i)%nat then d else f a.
  Definition rmove (w : rworld) (i : nat) : rout rworld :=
    match rstep (r_mem w) (r_thr w i) with
    | ROk (m, d, es) => ROk (RWd m (rput (r_thr w) i d) (r_log w ++ map (pair i) es))
    | RUndef => RUndef
    | RDead => RDead
    end.
  Fixpoint rrun (w : rworld) (s : list nat) : rout rworld :=
    match s with
    | [] => ROk w
    | i :: rest => match rmove w i with ROk w' => rrun w' rest | RUndef => RUndef | RDead => RDead end
    end.
  (** Thread [i] makes the calls [progs i]. *)
  Definition rstart (m : rmem) (progs : nat -> list rcall) : rworld := RWd m (fun i => prog (progs i)) [].
End Reg.
Arguments ROk {A} a. Arguments RUndef {A}. Arguments RDead {A}.
