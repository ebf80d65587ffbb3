(** Networks of pipeline stages and pools (include/xitren/comm/pipeline_stage.hpp and
    pipeline_stage_pool.hpp): the function given to a node pushes any items into any nodes,
    its own included.  Threads interleave as in PipelineModel.  Items are numbers; the
    counters are size_t, fewer than 2^64 pushes are assumed.  The measurements passed to the
    functions are left out (see C46). *)
From Verif Require Export PipelineModel.

(** A pipeline_stage, or a pipeline_stage_pool with its PoolSize. *)
Inductive kind := Stage | Pool (size : nat).
(** pipeline_stage.hpp:99; pipeline_stage_pool.hpp:49 (eight, whatever PoolSize is). *)
Definition queues_of (k : kind) : nat := match k with Stage => 1 | Pool _ => 8 end.
(** pipeline_stage.hpp:103; pipeline_stage_pool.hpp:96-98. *)
Definition workers_of (k : kind) : nat := match k with Stage => 1 | Pool n => n end.

(** Who calls push(): a thread outside the network, or worker [n] of node [m] in its function. *)
Inductive source := Outsider (k : nat) | Worker (m n : nat).
Definition source_eq (a b : source) : {a = b} + {a <> b}.
Proof. decide equality; apply Nat.eq_dec. Defined.

(** Where a thread is in push() (pipeline_stage.hpp:56-74, pipeline_stage_pool.hpp:111-131):
    before it; holding place [i] of queue [q] of node [m], nothing assigned yet; or in the
    middle of the assignment.  Behind that, what it has still to push, and where. *)
Inductive spc := SIdle | STicket (m q i : nat) (v : Z) | SStoring (m q i : nat) (v : Z).
Record sender := Sender { s_items : list (nat * Z); s_pc : spc }.

(** One queue and its counters (pipeline_stage.hpp:39-42,97; pipeline_stage_pool.hpp:43-48). *)
Record fqueue := FQ { fq_slots : list (option Z); fq_tail : nat; fq_head : nat }.

(** Recorded only: [src] got a place in queue [q] of node [m] for [v]; worker [n] of node [m]
    called the function with [v], which is going to push [out]. *)
Inductive fev := FPush (src : source) (m q : nat) (v : Z) | FCall (m n : nat) (v : Z) (out : list (nat * Z)).

Record fworld := FWorld { f_queue : nat -> nat -> fqueue; f_pc : nat -> nat -> wpc;
                          f_send : source -> sender; f_closed : nat -> bool; f_log : list fev }.
Definition set2 {A} (f : nat -> nat -> A) (m n : nat) (x : A) : nat -> nat -> A :=
  fun a b => if (a =? m)%nat && (b =? n)%nat then x else f a b.
Definition put_queue (w : fworld) (m q : nat) (x : fqueue) : fworld :=
  FWorld (set2 (f_queue w) m q x) (f_pc w) (f_send w) (f_closed w) (f_log w).
Definition put_pc (w : fworld) (m n : nat) (pc : wpc) : fworld :=
  FWorld (f_queue w) (set2 (f_pc w) m n pc) (f_send w) (f_closed w) (f_log w).
Definition put_send (w : fworld) (src : source) (x : sender) : fworld :=
  FWorld (f_queue w) (f_pc w) (fun s => if source_eq s src then x else f_send w s) (f_closed w) (f_log w).
Definition fnote (w : fworld) (e : fev) : fworld :=
  FWorld (f_queue w) (f_pc w) (f_send w) (f_closed w) (f_log w ++ [e]).

(** Who moves.  [q] stands for the result of min_thread, some queue of the pool.
    [FDestroy m]: the destructor of node [m] sets closed_ (pipeline_stage.hpp:50,
    pipeline_stage_pool.hpp:103); its join returns when the workers have ended. *)
Inductive fagent := FOut (k q : nat) | FWork (m n q : nat) | FDestroy (m : nat).

Section Flow.
  Variable nodes : list kind.
  Variable B : nat -> nat.                                        (* BufferSize of each node *)
  Variable func : list fev -> nat -> Z -> list (nat * Z).         (* what the function of a node pushes *)

  Definition kind_of (m : nat) : kind := nth m nodes Stage.
  Definition done (pc : wpc) : bool := match pc with WDone => true | _ => false end.
  (** The destructor may have returned; or there is no such node. *)
  Definition gone (w : fworld) (m : nat) : bool :=
    (length nodes <=? m)%nat || f_closed w m && forallb (fun n => done (f_pc w m n)) (seq 0 (workers_of (kind_of m))).

  (** One step of push(): tail++ (pipeline_stage.hpp:59,69; pool 115,126), then the assignment
      of the slot (60,70; pool 116,127).  A push into a node that may be gone is undefined. *)
  Definition push_step (w : fworld) (src : source) (q : nat) : res fworld :=
    let x := f_send w src in
    match s_pc x with
    | SIdle =>
      match s_items x with
      | [] => Ok w
      | (m, v) :: rest =>
        if gone w m then UB else
        let j := (q mod queues_of (kind_of m))%nat in
        let qu := f_queue w m j in
        Ok (fnote (put_send (put_queue w m j (FQ (fq_slots qu) (S (fq_tail qu)) (fq_head qu))) src
                            (Sender rest (STicket m j (fq_tail qu) v))) (FPush src m j v))
      end
    | STicket m j i v => if gone w m then UB else Ok (put_send w src (Sender (s_items x) (SStoring m j i v)))
    | SStoring m j i v =>
      if gone w m then UB else
      let qu := f_queue w m j in
      Ok (put_send (put_queue w m j (FQ (upd_nth (fq_slots qu) (i mod B m)%nat (Some v)) (fq_tail qu) (fq_head qu))) src
                   (Sender (s_items x) SIdle))
    end.

  Definition idle_sender (x : sender) : bool :=
    match s_items x, s_pc x with [], SIdle => true | _, _ => false end.

  (** One step of worker [n] of node [m] (pipeline_stage.hpp:108-133, pool 63-90); in WCall
      its function makes its pushes. *)
  Definition work_step (w : fworld) (m n q : nat) : res fworld :=
    let qu := f_queue w m n in
    match f_pc w m n with
    | WOuter => Ok (put_pc w m n (if f_closed w m then WOuter2 else WInner))
    | WOuter2 => Ok (put_pc w m n (if (fq_tail qu =? fq_head qu)%nat then WDone else WInner))
    | WInner => Ok (put_pc w m n (if (fq_head qu <? fq_tail qu)%nat then WCheck else WOuter))
    | WCheck =>
      match nth_error (fq_slots qu) (fq_head qu mod B m) with
      | None => UB
      | Some None => Ok (put_pc w m n WInner)
      | Some (Some _) => Ok (put_pc w m n WTake)
      end
    | WTake => Ok (put_pc (put_queue w m n (FQ (fq_slots qu) (fq_tail qu) (S (fq_head qu)))) m n (WRead (fq_head qu)))
    | WRead i =>
      match nth_error (fq_slots qu) (i mod B m) with
      | Some (Some v) =>
        let out := func (f_log w) m v in
        Ok (fnote (put_send (put_pc w m n WCall) (Worker m n) (Sender out SIdle)) (FCall m n v out))
      | _ => UB
      end
    | WCall =>
      if idle_sender (f_send w (Worker m n)) then Ok (put_pc w m n WInner) else push_step w (Worker m n) q
    | WDone => Ok w
    end.

  Definition fstep (w : fworld) (a : fagent) : res fworld :=
    match a with
    | FOut k q => push_step w (Outsider k) q
    | FWork m n q =>
      if (m <? length nodes)%nat && (n <? workers_of (kind_of m))%nat then
        if (n <? queues_of (kind_of m))%nat then work_step w m n q
        else UB                                   (* pool_[n] outside the array (pool 61) *)
      else Ok w
    | FDestroy m => Ok (FWorld (f_queue w) (f_pc w) (f_send w)
                               (fun a => if (a =? m)%nat then true else f_closed w a) (f_log w))
    end.
  Fixpoint frun (w : fworld) (s : list fagent) : res fworld :=
    match s with
    | [] => Ok w
    | a :: rest => w' <- fstep w a ;; frun w' rest
    end.

  (** All nodes constructed; thread [k] outside is going to push [progs k]. *)
  Definition fstart (progs : nat -> list (nat * Z)) : fworld :=
    FWorld (fun m _ => FQ (repeat None (B m)) 0 0) (fun _ _ => WOuter)
           (fun src => match src with Outsider k => Sender (progs k) SIdle | Worker _ _ => Sender [] SIdle end)
           (fun _ => false) [].
End Flow.
