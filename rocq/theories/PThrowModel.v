(** pipeline_stage and pipeline_stage_pool (include/xitren/comm/pipeline_stage.hpp:102-137,
    pipeline_stage_pool.hpp:56-99) whose function throws.  The workers are std::threads and
    nothing in them catches: an exception that leaves the function leaves the thread's lambda and
    ends the program (std::terminate).  Otherwise the machine of PipelineModel. *)
From Verif Require Export PipelineModel.

Inductive tout :=
| TRun (w : pworld)      (* the program goes on *)
| TDead (w : pworld)     (* ended by an exception in this state *)
| TUndef.

Section Throw.
  Variable B : nat.
  (** Whether the function throws may depend on everything that happened before: the steps of all
      threads, the worker, the items it had before, the item. *)
  Variable thr : list agent -> nat -> list Z -> Z -> bool.

  (** Worker [n] is in the function (123-124; pool 79-80) and is about to leave it. *)
  Definition throws_now (past : list agent) (w : pworld) (a : agent) : bool :=
    match a with
    | W n =>
      match nth_error (p_workers w) n, nth_error (p_queues w) n with
      | Some WCall, Some q =>
        match rev (q_done q) with
        | v :: e => thr past n (rev e) v
        | [] => false
        end
      | _, _ => false
      end
    | _ => false
    end.
  Fixpoint trun (past : list agent) (w : pworld) (s : list agent) : tout :=
    match s with
    | [] => TRun w
    | a :: rest =>
      if throws_now past w a then TDead w
      else match pstep B w a with
           | Ok w' => trun (past ++ [a]) w' rest
           | _ => TUndef
           end
    end.
End Throw.
