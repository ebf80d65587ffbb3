(** Vocabulary for the fixed-size observable used by several threads. *)
From Verif Require Export ObsShareModel ObserverSpec.

(** What a single-threaded use leaves in memory. *)
Definition mem_of (w : world Z) : shared := Sh (w_slots w) (w_cnt w) (w_inside w).
(** A call made by one thread with nobody else there, callbacks returning at once
    (ObserverModel): what it leaves, what is seen, the result. *)
Definition alone (self : addr) (Max : Z) (m : shared) (c : call Z) : res (shared * list (ev Z)) :=
  ' (w, _) <- run self Max (fun _ _ _ => Return) (fun _ _ => Return) 1 (W (m_slots m) (m_cnt m) (m_inside m) []) c ;;
  Ok (mem_of w, w_log w).

(** What thread [t] did; what it did since its last return; the calls it returned from. *)
Definition by_thread (t : nat) (l : list (nat * ev Z)) : list (ev Z) :=
  flat_map (fun x => if (fst x =? t)%nat then [snd x] else []) l.
Fixpoint since_ret (acc l : list (ev Z)) : list (ev Z) :=
  match l with
  | [] => acc
  | Ret _ _ :: rest => since_ret [] rest
  | e :: rest => since_ret (acc ++ [e]) rest
  end.
Definition returns (l : list (ev Z)) : list (call Z) :=
  flat_map (fun e => match e with Ret c _ => [c] | _ => [] end) l.
(** No thread is in a call or has one to make. *)
Definition all_returned (w : sworld) : Prop := forall t, s_thr w t = STh [] SIdle.
(** Threads [t] and [u] make one call each, the others none. *)
Definition two (t u : nat) (a b : call Z) (k : nat) : list (call Z) :=
  if (k =? t)%nat then [a] else if (k =? u)%nat then [b] else [].
Definition only_notify (progs : nat -> list (call Z)) : Prop :=
  forall t c, In c (progs t) -> exists v, c = Notify v.
(** Two threads are about to access the same variable, one of them to write it. *)
Definition data_race (w : sworld) : Prop :=
  exists t u p b, t <> u /\ access (s_pc (s_thr w t)) = Some (p, true) /\ access (s_pc (s_thr w u)) = Some (p, b).
(** [a] happened before [b]. *)
Definition before {A} (l : list A) (a b : A) : Prop := exists l1 l2 l3, l = l1 ++ a :: l2 ++ b :: l3.
