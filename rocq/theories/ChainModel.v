(** Several stages of include/xitren/comm/pipeline_stage.hpp, where the function given to
    each stage but the last pushes what it computes into the next stage. *)
From Verif Require Export PipelineModel.

(** Who moves: producer [k] outside the chain (pushes into stage 0), the worker of stage
    [m], the destructor of stage [m] (pipeline_stage.hpp:48-54: closed_ = true; its join
    returns when the worker has ended). *)
Inductive jagent := Outside (k : nat) | Work (m : nat) | Destroy (m : nat).

Section Chain.
  (** BufferSize of each stage. *)
  Variable B : nat -> nat.
  (** What the function of stage [m] computes from its item. *)
  Variable f : nat -> Z -> Z.

  (** The item func_ has just been called with (123). *)
  Definition last_item (w : pworld) : Z :=
    match p_queues w with q :: _ => last (q_done q) 0 | [] => 0 end.
  (** func_ is about to push [x] into the stage: the stage's only producer has it. *)
  Definition hand (w : pworld) (x : Z) : pworld :=
    PW (p_queues w) (p_workers w) (map (fun p => Prod (pr_items p ++ [x]) (pr_pc p)) (p_prods w)) (p_closed w).
  (** The worker has ended: the join in the destructor returns, the members go away. *)
  Definition ended (w : pworld) : bool :=
    match p_workers w with WDone :: _ => true | _ => false end.

  (** One step.  The worker of stage [m] inside func_ (WCall) makes the steps of push()
      on stage m+1 (56-74); a push into a stage whose worker has ended is undefined, as
      nothing keeps the stage from being gone. *)
  Definition jstep (ws : list pworld) (a : jagent) : res (list pworld) :=
    match a with
    | Outside k =>
      match ws with
      | [] => Ok ws
      | w :: rest => w' <- pstep (B 0) w (P k 0) ;; Ok (w' :: rest)
      end
    | Destroy m =>
      match nth_error ws m with
      | None => Ok ws
      | Some w =>
        if (m =? 0)%nat then w' <- pstep (B 0) w Close ;; Ok (upd_nth ws 0 w')
        else Ok (upd_nth ws m (PW (p_queues w) (p_workers w) (p_prods w) true))
      end
    | Work m =>
      match nth_error ws m with
      | None => Ok ws
      | Some w =>
        match p_workers w, nth_error ws (S m) with
        | WRead _ :: _, Some nx =>
          w' <- pstep (B m) w (W 0) ;;
          Ok (upd_nth (upd_nth ws m w') (S m) (hand nx (f m (last_item w'))))
        | WCall :: _, Some nx =>
          if forallb idle (p_prods nx) then w' <- pstep (B m) w (W 0) ;; Ok (upd_nth ws m w')
          else if ended nx then UB
          else nx' <- pstep (B (S m)) nx (P 0 0) ;; Ok (upd_nth ws (S m) nx')
        | _, _ => w' <- pstep (B m) w (W 0) ;; Ok (upd_nth ws m w')
        end
      end
    end.

  Fixpoint jrun (ws : list pworld) (s : list jagent) : res (list pworld) :=
    match s with
    | [] => Ok ws
    | a :: rest => ws' <- jstep ws a ;; jrun ws' rest
    end.

  (** [n] stages; the producers outside push [progs] into the first. *)
  Definition jstart (n : nat) (progs : list (list Z)) : list pworld :=
    map (fun m => stage_start (B m) (match m with O => progs | S _ => [[]] end)) (seq 0 n).
End Chain.
