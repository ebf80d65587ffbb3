(** One pipeline_stage or pipeline_stage_pool in more detail than PipelineModel: min_thread
    read by read, the statistics, callers of time_for_unit()/buffer_utilization() outside
    (include/xitren/comm/pipeline_stage.hpp, pipeline_stage_pool.hpp).  Items are numbers; the
    counters are size_t, fewer than 2^64 pushes are assumed. *)
From Verif Require Export PipelineModel.

(** One queue: array, tail, head, stat (pipeline_stage.hpp:97,99,101; pool 43-48). *)
Record oqueue := OQ { oq_slots : list (option Z); oq_tail : nat; oq_head : nat; oq_stat : list (Z * Z) }.

(** Where a worker is: as in PipelineModel; [OCall]: in func_ or reading the clock and the
    counters after it (pipeline_stage.hpp:123-127, pool 78-84); [OStat m]: in push_front and
    pop_back (126-130; pool 81-87). *)
Inductive opc := OOuter | OOuter2 | OInner | OCheck | OTake | ORead (i : nat) | OCall | OStat (m : Z * Z) | ODone.

(** Where a thread is in push(): before it; in min_thread before queue [i], least size so far
    [mn] at [mi] (pool 164-172); there, having read one of the counters of queue [i] ([tail]:
    which one; 168); then as in PipelineModel.  A stage has no min_thread. *)
Inductive hpc :=
| HIdle
| HScan (i : nat) (mn : Z) (mi : nat)
| HHalf (i : nat) (mn : Z) (mi : nat) (tail : bool) (x : nat)
| HTicket (q i : nat) (v : Z)
| HStoring (q i : nat) (v : Z).
Record pusher := Pusher { h_items : list Z; h_pc : hpc }.

(** Recorded only: thread [k] enters push; gets a place in queue [q] for [v]; worker [n]
    removes an item from its queue; calls the function with [v] and the measurement [t], [u]
    and in a pool its number [id]; has returned from it and measured [e] milliseconds and a
    backlog of [b]; has added that to the statistics; outside, time_for_unit ([time]) or
    buffer_utilization returned [x]. *)
Inductive oev :=
| EBegin (k : nat)
| ETicket (k q : nat) (v : Z)
| ETake (n : nat)
| ECall (n : nat) (v id t u : Z)
| EReturn (n : nat) (e b : Z)
| EMeasure (n : nat)
| EReport (r : nat) (time : bool) (x : Z).

Record oworld := OW { o_queue : nat -> oqueue; o_pc : nat -> opc; o_push : nat -> pusher;
                      o_ask : nat -> option bool; o_closed : bool; o_log : list oev }.
Definition set1 {A} (f : nat -> A) (n : nat) (x : A) : nat -> A := fun a => if (a =? n)%nat then x else f a.
Definition oput_queue (w : oworld) (n : nat) (q : oqueue) : oworld :=
  OW (set1 (o_queue w) n q) (o_pc w) (o_push w) (o_ask w) (o_closed w) (o_log w).
Definition oput_pc (w : oworld) (n : nat) (pc : opc) : oworld :=
  OW (o_queue w) (set1 (o_pc w) n pc) (o_push w) (o_ask w) (o_closed w) (o_log w).
Definition oput_push (w : oworld) (k : nat) (p : pusher) : oworld :=
  OW (o_queue w) (o_pc w) (set1 (o_push w) k p) (o_ask w) (o_closed w) (o_log w).
Definition oput_ask (w : oworld) (r : nat) (x : option bool) : oworld :=
  OW (o_queue w) (o_pc w) (o_push w) (set1 (o_ask w) r x) (o_closed w) (o_log w).
Definition onote (w : oworld) (e : oev) : oworld :=
  OW (o_queue w) (o_pc w) (o_push w) (o_ask w) (o_closed w) (o_log w ++ [e]).

(** Conversion to int of the count of milliseconds and of tail - head
    (pipeline_stage.hpp:126-127, pool 83-84). *)
Definition to_int (x : Z) : Z := (x + 2 ^ 31) mod 2 ^ 32 - 2 ^ 31.

(** Who moves.  [OPush k tail]: thread [k] in push; of tail - head, whose operands may be read
    in either order, it reads [tail] first or not.  [OWork n e]: worker [n]; [e] is what the
    clock says the call took, in milliseconds, when it looks.  [OAsk r time]: a thread outside
    calls time_for_unit or buffer_utilization of a stage.  [OClose]: the destructor sets
    closed_. *)
Inductive oagent := OPush (k : nat) (tail : bool) | OWork (n : nat) (e : Z) | OAsk (r : nat) (time : bool) | OClose.

Section Pool.
  Variable pool : bool.                (* a pool; otherwise a stage *)
  Variable size : nat.                 (* PoolSize *)
  Variable B : nat.                    (* BufferSize *)

  Definition oqueues : nat := if pool then 8 else 1.
  Definition oworkers : nat := if pool then size else 1.

  (** push (pipeline_stage.hpp:56-74, pool 111-131) with min_thread (pool 161-176). *)
  Definition opush_step (w : oworld) (k : nat) (tail : bool) : oworld :=
    let p := o_push w k in
    match h_pc p with
    | HIdle =>
      match h_items p with
      | [] => w
      | _ => onote (oput_push w k (Pusher (h_items p) (HScan (if pool then 0 else 1) INT_MAX 0))) (EBegin k)
      end
    | HScan i mn mi =>
      if (i <? oqueues)%nat then
        let x := if tail then oq_tail (o_queue w i) else oq_head (o_queue w i) in
        oput_push w k (Pusher (h_items p) (HHalf i mn mi tail x))
      else
        match h_items p with
        | [] => w
        | v :: rest =>
          let qu := o_queue w mi in
          onote (oput_push (oput_queue w mi (OQ (oq_slots qu) (S (oq_tail qu)) (oq_head qu) (oq_stat qu))) k
                           (Pusher rest (HTicket mi (oq_tail qu) v))) (ETicket k mi v)
        end
    | HHalf i mn mi t x =>
      let qu := o_queue w i in
      let sz := u64 (if t then Z.of_nat x - Z.of_nat (oq_head qu) else Z.of_nat (oq_tail qu) - Z.of_nat x) in
      oput_push w k (Pusher (h_items p) (if sz <? mn then HScan (S i) sz i else HScan (S i) mn mi))
    | HTicket q i v => oput_push w k (Pusher (h_items p) (HStoring q i v))
    | HStoring q i v =>
      let qu := o_queue w q in
      oput_push (oput_queue w q (OQ (upd_nth (oq_slots qu) (i mod B)%nat (Some v)) (oq_tail qu) (oq_head qu) (oq_stat qu))) k
                (Pusher (h_items p) HIdle)
    end.

  (** A worker (pipeline_stage.hpp:108-133, pool 63-90). *)
  Definition owork_step (w : oworld) (n : nat) (e : Z) : res oworld :=
    let qu := o_queue w n in
    match o_pc w n with
    | OOuter => Ok (oput_pc w n (if o_closed w then OOuter2 else OInner))
    | OOuter2 => Ok (oput_pc w n (if (oq_tail qu =? oq_head qu)%nat then ODone else OInner))
    | OInner => Ok (oput_pc w n (if (oq_head qu <? oq_tail qu)%nat then OCheck else OOuter))
    | OCheck =>
      match nth_error (oq_slots qu) (oq_head qu mod B) with
      | None => UB
      | Some None => Ok (oput_pc w n OInner)
      | Some (Some _) => Ok (oput_pc w n OTake)
      end
    | OTake => Ok (onote (oput_pc (oput_queue w n (OQ (oq_slots qu) (oq_tail qu) (S (oq_head qu)) (oq_stat qu))) n
                                  (ORead (oq_head qu))) (ETake n))
    | ORead i =>
      match nth_error (oq_slots qu) (i mod B) with
      | Some (Some v) =>
        t <- time_for_unit (oq_stat qu) ;; u <- buffer_utilization (oq_stat qu) ;;
        Ok (onote (oput_pc w n OCall) (ECall n v (Z.of_nat n) t u))
      | _ => UB
      end
    | OCall =>
      let m := (to_int e, to_int (Z.of_nat (oq_tail qu) - Z.of_nat (oq_head qu))) in
      Ok (onote (oput_pc w n (OStat m)) (EReturn n (fst m) (snd m)))
    | OStat m =>
      Ok (onote (oput_pc (oput_queue w n (OQ (oq_slots qu) (oq_tail qu) (oq_head qu) (stat_push (oq_stat qu) m))) n OInner)
                (EMeasure n))
    | ODone => Ok w
    end.

  Definition ostep (w : oworld) (a : oagent) : res oworld :=
    match a with
    | OPush k tail => Ok (opush_step w k tail)
    | OWork n e =>
      if (n <? oworkers)%nat then
        if (n <? oqueues)%nat then owork_step w n e
        else UB                          (* pool_[n] outside the array (pool 61) *)
      else Ok w
    | OAsk r time =>                     (* pipeline_stage.hpp:76-94; not public in a pool *)
      if pool then Ok w else
      match o_ask w r with
      | None => Ok (oput_ask w r (Some time))
      | Some t =>
        x <- (if t then time_for_unit else buffer_utilization) (oq_stat (o_queue w 0)) ;;
        Ok (onote (oput_ask w r None) (EReport r t x))
      end
    | OClose => Ok (OW (o_queue w) (o_pc w) (o_push w) (o_ask w) true (o_log w))
    end.
  Fixpoint orun (w : oworld) (s : list oagent) : res oworld :=
    match s with
    | [] => Ok w
    | a :: rest => w' <- ostep w a ;; orun w' rest
    end.
  Definition ostart (progs : nat -> list Z) : oworld :=
    OW (fun _ => OQ (repeat None B) 0 0 []) (fun _ => OOuter) (fun k => Pusher (progs k) HIdle) (fun _ => None) false [].
End Pool.
