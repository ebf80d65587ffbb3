(** interval_event (include/xitren/func/interval_event.hpp:44-58) whose function throws.  The
    worker is a std::thread and nothing in it catches: an exception that leaves the function
    ends the program (std::terminate).  Otherwise the machine of IntervalModel. *)
From Verif Require Export IntervalModel.

Inductive iout :=
| IRun (s : st)      (* the program goes on *)
| IDead (s : st)     (* ended by an exception in this state *)
| IUndef.

Section Throw.
  (** Whether the function throws may depend on all steps of all threads before. *)
  Variable thr : list label -> bool.

  (** The worker is in the function (50) and is about to leave it. *)
  Definition leaves_by_throw (past : list label) (s : st) (l : label) : bool :=
    match l, worker s with
    | LWorker _ _, WCall => thr past
    | _, _ => false
    end.
  Fixpoint irun (past : list label) (s : st) (ls : list label) : iout :=
    match ls with
    | [] => IRun s
    | l :: ls' =>
      if leaves_by_throw past s l then IDead s
      else match step s l with
           | Ok (Some s') => irun (past ++ [l]) s' ls'
           | Ok None => irun (past ++ [l]) s ls'
           | _ => IUndef
           end
    end.
End Throw.
