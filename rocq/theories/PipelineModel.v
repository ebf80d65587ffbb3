(** Model of include/xitren/comm/pipeline_stage.hpp and pipeline_stage_pool.hpp. *)
From Coq Require Export Permutation.
From Verif Require Export BaseLemmas.

(** One queue with its worker's counters: pipeline_stage's queue_, tail_
    (pipeline_stage.hpp:39-42,97,99), one element of the pool's pool_
    (pipeline_stage_pool.hpp:43-48; there tail_ is called head).  Items are numbers.
    The counters are size_t; fewer than 2^64 pushes are assumed.
    [q_log] (who took which ticket with which item, in ticket order) and [q_done]
    (the items func_ was called with) only record what happened. *)
Record queue := Queue { q_slots : list (option Z); q_tail : nat; q_head : nat;
                        q_log : list (nat * Z); q_done : list Z }.

(** Where a worker is (pipeline_stage.hpp:108-133, pipeline_stage_pool.hpp:63-90). *)
Inductive wpc :=
| WOuter       (* 108: about to read closed_ *)
| WOuter2      (* 108: closed_ was true, about to compare the counters *)
| WInner       (* 109: inner loop condition *)
| WCheck       (* 110: is the slot engaged? *)
| WTake        (* 117: tail_++ *)
| WRead (i : nat)  (* 121-124: data.value() of slot i, call of func_ *)
| WCall        (* in func_, then 125-130 *)
| WDone.

(** Where a producer is in push() (pipeline_stage.hpp:56-74,
    pipeline_stage_pool.hpp:111-131): before it, holding ticket [i] of queue [q]
    with the assignment to the slot not begun, or in the middle of the assignment. *)
Inductive ppc :=
| PIdle | PTicket (q i : nat) (v : Z) | PStoring (q i : nat) (v : Z).
Record prod := Prod { pr_items : list Z; pr_pc : ppc }.

Record pworld := PW { p_queues : list queue; p_workers : list wpc; p_prods : list prod;
                      p_closed : bool }.

Fixpoint upd_nth {A} (l : list A) (i : nat) (x : A) : list A :=
  match l, i with
  | [], _ => []
  | _ :: r, O => x :: r
  | y :: r, S j => y :: upd_nth r j x
  end.

(** One step of a worker on its queue.  Reading the slot while a producer assigns
    it is a data race in C++; here the readiness flag is taken to be read atomically
    (see [racing] in PipelineSpec and property C45).
    WRead: value() of a disengaged optional throws in the thread: undefined here. *)
Definition wstep (B : nat) (closed : bool) (q : queue) (pc : wpc) : res (queue * wpc) :=
  match pc with
  | WOuter => Ok (q, if closed then WOuter2 else WInner)
  | WOuter2 => Ok (q, if (q_tail q =? q_head q)%nat then WDone else WInner)
  | WInner => Ok (q, if (q_head q <? q_tail q)%nat then WCheck else WOuter)
  | WCheck =>
    match nth_error (q_slots q) (q_head q mod B) with
    | None => UB
    | Some None => Ok (q, WInner)
    | Some (Some _) => Ok (q, WTake)
    end
  | WTake => Ok (Queue (q_slots q) (q_tail q) (S (q_head q)) (q_log q) (q_done q), WRead (q_head q))
  | WRead i =>
    match nth_error (q_slots q) (i mod B) with
    | Some (Some v) => Ok (Queue (q_slots q) (q_tail q) (q_head q) (q_log q) (q_done q ++ [v]), WCall)
    | _ => UB
    end
  | WCall => Ok (q, WInner)
  | WDone => Ok (q, WDone)
  end.

(** tail++ of push (59/69; pool 115/126). *)
Definition take_ticket (q : queue) (k : nat) (v : Z) : queue :=
  Queue (q_slots q) (S (q_tail q)) (q_head q) (q_log q ++ [(k, v)]) (q_done q).
(** array[i % size] = data (60/70; pool 116/127). *)
Definition store (B : nat) (q : queue) (i : nat) (v : Z) : queue :=
  Queue (upd_nth (q_slots q) (i mod B) (Some v)) (q_tail q) (q_head q) (q_log q) (q_done q).

(** Who moves.  [P k q]: producer [k]; when it starts a push it uses queue [q]
    (pipeline_stage has one queue; the pool uses the result of min_thread, which is
    one of its queues).  [W n]: worker [n].  [Close]: the destructor's closed_ = true
    (pipeline_stage.hpp:50, pipeline_stage_pool.hpp:103), only once the producers are
    through; its join returns when the workers are done. *)
Inductive agent := P (k q : nat) | W (n : nat) | Close.

Definition idle (p : prod) : bool :=
  match pr_items p, pr_pc p with [], PIdle => true | _, _ => false end.

Definition pstep (B : nat) (w : pworld) (a : agent) : res pworld :=
  match a with
  | P k q =>
    match nth_error (p_prods w) k with
    | None => Ok w
    | Some p =>
      match pr_pc p with
      | PIdle =>
        match pr_items p, nth_error (p_queues w) q with
        | v :: rest, Some qu =>
          Ok (PW (upd_nth (p_queues w) q (take_ticket qu k v)) (p_workers w)
                 (upd_nth (p_prods w) k (Prod rest (PTicket q (q_tail qu) v))) (p_closed w))
        | _, _ => Ok w
        end
      | PTicket q' i v =>
        Ok (PW (p_queues w) (p_workers w)
               (upd_nth (p_prods w) k (Prod (pr_items p) (PStoring q' i v))) (p_closed w))
      | PStoring q' i v =>
        match nth_error (p_queues w) q' with
        | None => UB
        | Some qu =>
          Ok (PW (upd_nth (p_queues w) q' (store B qu i v)) (p_workers w)
                 (upd_nth (p_prods w) k (Prod (pr_items p) PIdle)) (p_closed w))
        end
      end
    end
  | W n =>
    match nth_error (p_workers w) n with
    | None => Ok w
    | Some pc =>
      match nth_error (p_queues w) n with
      | None => UB                            (* pool: pool_[n] outside the array (61) *)
      | Some qu =>
        ' (qu', pc') <- wstep B (p_closed w) qu pc ;;
        Ok (PW (upd_nth (p_queues w) n qu') (upd_nth (p_workers w) n pc') (p_prods w) (p_closed w))
      end
    end
  | Close => Ok (PW (p_queues w) (p_workers w) (p_prods w) (p_closed w || forallb idle (p_prods w)))
  end.

Fixpoint prun (B : nat) (w : pworld) (s : list agent) : res pworld :=
  match s with
  | [] => Ok w
  | a :: rest => w' <- pstep B w a ;; prun B w' rest
  end.

Definition fresh_queue (B : nat) : queue := Queue (repeat None B) 0 0 [] [].
(** [nq] queues, [nw] workers, one producer per program. *)
Definition pstart (B nq nw : nat) (progs : list (list Z)) : pworld :=
  PW (repeat (fresh_queue B) nq) (repeat WOuter nw) (map (fun l => Prod l PIdle) progs) false.
(** pipeline_stage<..., BufferSize>. *)
Definition stage_start (B : nat) (progs : list (list Z)) : pworld := pstart B 1 1 progs.
(** pipeline_stage_pool<..., BufferSize, PoolSize>: always eight queues
    (pipeline_stage_pool.hpp:49), PoolSize workers (96-98). *)
Definition pool_start (B PoolSize : nat) (progs : list (list Z)) : pworld := pstart B 8 PoolSize progs.

(** ** min_thread (pipeline_stage_pool.hpp:161-176) on the backlogs tail - head *)
Definition INT_MAX : Z := 2 ^ 31 - 1.
Fixpoint min_from (l : list Z) (i : nat) (mn : Z) (mi : nat) : nat :=
  match l with
  | [] => mi
  | sz :: rest => if sz <? mn then min_from rest (S i) sz i else min_from rest (S i) mn mi
  end.
Definition min_thread (backlogs : list Z) : nat := min_from backlogs 0 INT_MAX 0.

(** ** the statistics (pipeline_stage.hpp:76-94,126-130; pool 81-87,133-151) *)
Definition measure_points : Z := 10.
Definition stat_push (stat : list (Z * Z)) (m : Z * Z) : list (Z * Z) :=
  let s := m :: stat in
  if Z.of_nat (length s) >? measure_points then removelast s else s.
(** calc += ... in int; undefined on overflow. *)
Fixpoint int_sum (acc : Z) (l : list Z) : res Z :=
  match l with
  | [] => Ok acc
  | x :: r => if (- 2 ^ 31 <=? acc + x) && (acc + x <? 2 ^ 31) then int_sum (acc + x) r else UB
  end.
Definition time_for_unit (stat : list (Z * Z)) : res Z :=
  c <- int_sum 0 (map fst stat) ;; Ok (Z.quot c measure_points).
Definition buffer_utilization (stat : list (Z * Z)) : res Z :=
  c <- int_sum 0 (map snd stat) ;; Ok (Z.quot c measure_points).
