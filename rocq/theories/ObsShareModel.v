(** comm::observable<T,true,Max> (include/xitren/comm/observer.hpp:66-195) used by several
    threads: there is no lock, so every call is a sequence of single reads and writes of
    observers_, count_ and inside, in the order of the source, and threads interleave between
    them.  Simplified: the accesses of different threads happen one after the other (in C++
    unsynchronised conflicting accesses are undefined altogether; see [access]); data() and
    disconnect() of an observer return at once without calling the observable. *)
From Verif Require Export ObserverModel.

(** observers_, count_, inside (observer.hpp:169-177). *)
Record shared := Sh { m_slots : list ptr; m_cnt : nat; m_inside : bool }.

(** Where a thread is: what it does next. *)
Inductive spc :=
| SIdle
(* add_observer, 93-104 *)
| SAdd (o : addr)                      (* reads count_ (96) *)
| SLen (o : addr)                      (* reads count_ in contains (189) *)
| SScan (o : addr) (i n : nat)         (* reads observers_[i] in contains (190) *)
| SCount (o : addr)                    (* reads count_ in count_++ (99) *)
| SBump (o : addr) (v : nat)           (* writes count_ there *)
| SPut (o : addr) (v : nat)            (* writes observers_[v] (99) *)
(* remove_observer, 114-128 *)
| SRem (o : addr)                      (* reads count_ (117) *)
| SZero (o : addr)                     (* reads count_ (119) *)
| SRange (o : addr)                    (* reads count_ (121) *)
| SFind (o : addr) (i n : nat)         (* std::remove: looks for the first match *)
| SLook (o : addr) (r i n : nat)       (* std::remove: reads observers_[i] *)
| SMove (o : addr) (r i n : nat) (x : ptr) (* std::remove: writes observers_[r] *)
| SLeft (o : addr) (r : nat)           (* reads count_ (122) *)
| SShrink (o : addr) (r : nat)         (* writes count_ (123) *)
(* clear_observers, 133-140 *)
| SClear                               (* reads count_ (136) *)
| SDisc (i n : nat)                    (* reads observers_[i], calls disconnect (137) *)
| SEmpty                               (* writes count_ (139) *)
(* notify_observers, 150-163 *)
| SNote (v : Z)                        (* reads count_ (153) *)
| SInside (v : Z)                      (* reads inside (155) *)
| SEnter (v : Z)                       (* writes inside (157) *)
| SRounds (v : Z)                      (* reads count_ (158) *)
| SCall (v : Z) (i n : nat)            (* reads observers_[i], calls data (159) *)
| SLeave (v : Z).                      (* writes inside (161) *)

Definition begin_call (c : call Z) : spc :=
  match c with Add o => SAdd o | Remove o => SRem o | Clear => SClear | Notify v => SNote v end.

(** Which variable the next step accesses, and whether it writes it. *)
Inductive place := PCount | PInside | PSlot (i : nat).
Definition access (pc : spc) : option (place * bool) :=
  match pc with
  | SIdle => None
  | SAdd _ | SLen _ | SCount _ | SRem _ | SZero _ | SRange _ | SLeft _ _ | SClear | SNote _ | SRounds _ => Some (PCount, false)
  | SBump _ _ | SShrink _ _ | SEmpty => Some (PCount, true)
  | SInside _ => Some (PInside, false)
  | SEnter _ | SLeave _ => Some (PInside, true)
  | SScan _ i _ | SFind _ i _ | SLook _ _ i _ | SDisc i _ | SCall _ i _ => Some (PSlot i, false)
  | SPut _ i | SMove _ i _ _ _ => Some (PSlot i, true)
  end.

Section Share.
  Variable self : addr.
  Variable Max : Z.

  (** After a loop has compared or handled the slot before [i] of [n]. *)
  Definition scan_next (o : addr) (i n : nat) : spc := if (i =? n)%nat then SCount o else SScan o i n.
  Definition look_next (o : addr) (r i n : nat) : spc := if (i =? n)%nat then SLeft o r else SLook o r i n.
  Definition find_next (o : addr) (i n : nat) : spc := if (i =? n)%nat then SLeft o n else SFind o i n.
  Definition disc_next (i n : nat) : spc := if (i =? n)%nat then SEmpty else SDisc i n.
  Definition call_next (v : Z) (i n : nat) : spc := if (i =? n)%nat then SLeave v else SCall v i n.

  (** One access: shared variables, where the thread is then, what was seen. *)
  Definition sstep (m : shared) (pc : spc) : res (shared * spc * list (ev Z)) :=
    let a := m_slots m in let cnt := m_cnt m in let ins := m_inside m in
    match pc with
    | SIdle => Ok (m, SIdle, [])
    | SAdd o => if (max_observers Max <=? cnt)%nat then Ok (m, SIdle, [Ret (Add o) list_is_full]) else Ok (m, SLen o, [])
    | SLen o => Ok (m, scan_next o 0 cnt, [])
    | SScan o i n =>
      x <- slot a i ;;
      if points_to x o then Ok (m, SIdle, [Ret (Add o) already_contains]) else Ok (m, scan_next o (S i) n, [])
    | SCount o => Ok (m, SBump o cnt, [])
    | SBump o v => Ok (Sh a (S v) ins, SPut o v, [])
    | SPut o v => a' <- put_slot a v (Some o) ;; Ok (Sh a' cnt ins, SIdle, [Ret (Add o) ok])
    | SRem o => if (max_observers Max <? cnt)%nat then Ok (m, SIdle, [Ret (Remove o) internal_data_broken]) else Ok (m, SZero o, [])
    | SZero o => if (cnt =? 0)%nat then Ok (m, SIdle, [Ret (Remove o) not_found]) else Ok (m, SRange o, [])
    | SRange o => Ok (m, find_next o 0 cnt, [])
    | SFind o i n =>
      x <- slot a i ;;
      if points_to x o then Ok (m, look_next o i (S i) n, []) else Ok (m, find_next o (S i) n, [])
    | SLook o r i n =>
      x <- slot a i ;;
      if points_to x o then Ok (m, look_next o r (S i) n, []) else Ok (m, SMove o r i n x, [])
    | SMove o r i n x => a' <- put_slot a r x ;; Ok (Sh a' cnt ins, look_next o (S r) (S i) n, [])
    | SLeft o r => if (cnt =? r)%nat then Ok (m, SIdle, [Ret (Remove o) not_found]) else Ok (m, SShrink o r, [])
    | SShrink o r => Ok (Sh a r ins, SIdle, [Ret (Remove o) ok])
    | SClear => Ok (m, disc_next 0 cnt, [])
    | SDisc i n =>
      x <- slot a i ;;
      match x with None => UB | Some o => Ok (m, disc_next (S i) n, [Disc self o]) end
    | SEmpty => Ok (Sh a 0 ins, SIdle, [Ret Clear ok])
    | SNote v => if (max_observers Max <? cnt)%nat then Ok (m, SIdle, [Ret (Notify v) internal_data_broken]) else Ok (m, SInside v, [])
    | SInside v => if ins then Ok (m, SIdle, [Ret (Notify v) notify_recursion_detected]) else Ok (m, SEnter v, [])
    | SEnter v => Ok (Sh a cnt true, SRounds v, [])
    | SRounds v => Ok (m, call_next v 0 cnt, [])
    | SCall v i n =>
      x <- slot a i ;;
      match x with None => UB | Some o => Ok (m, call_next v (S i) n, [Data self o v]) end
    | SLeave v => Ok (Sh a cnt false, SIdle, [Ret (Notify v) ok])
    end.

  (** Thread [t] and the calls it still has to make; what happened, and in which thread. *)
  Record sthread := STh { s_calls : list (call Z); s_pc : spc }.
  Record sworld := SW { s_mem : shared; s_thr : nat -> sthread; s_log : list (nat * ev Z) }.
  Definition sput (f : nat -> sthread) (t : nat) (x : sthread) : nat -> sthread :=
    fun a => if (a =? t)%nat then x else f a.

  (** Thread [t] moves: enters its next call or does the next access of the call it is in. *)
  Definition smove (w : sworld) (t : nat) : res sworld :=
    let th := s_thr w t in
    match s_pc th with
    | SIdle =>
      match s_calls th with
      | [] => Ok w
      | c :: rest => Ok (SW (s_mem w) (sput (s_thr w) t (STh rest (begin_call c))) (s_log w))
      end
    | pc =>
      ' (m, pc', es) <- sstep (s_mem w) pc ;;
      Ok (SW m (sput (s_thr w) t (STh (s_calls th) pc')) (s_log w ++ map (pair t) es))
    end.
  Fixpoint srun (w : sworld) (s : list nat) : res sworld :=
    match s with
    | [] => Ok w
    | t :: rest => w' <- smove w t ;; srun w' rest
    end.

  (** The threads start with an observable in the state [m]. *)
  Definition sstart (m : shared) (progs : nat -> list (call Z)) : sworld :=
    SW m (fun t => STh (progs t) SIdle) [].
End Share.
