(** Vocabulary for the pipeline properties. *)
From Verif Require Export PipelineModel.

(** Items pushed to queue [n] (with their producer) in ticket order, and the items
    the function was called with by worker [n]. *)
Definition pushed (w : pworld) (n : nat) : list (nat * Z) :=
  match nth_error (p_queues w) n with Some q => q_log q | None => [] end.
Definition processed (w : pworld) (n : nat) : list Z :=
  match nth_error (p_queues w) n with Some q => q_done q | None => [] end.

(** What producer [k] put into a queue, in order. *)
Definition by_producer (k : nat) (l : list (nat * Z)) : list Z :=
  map snd (filter (fun x => (fst x =? k)%nat) l).

(** The join of the destructor returns: every worker has ended. *)
Definition all_done (w : pworld) : Prop := forall pc, In pc (p_workers w) -> pc = WDone.

(** A worker reads (the flag or the value of) a slot that a producer is assigning. *)
Definition reads_slot (B : nat) (q : queue) (pc : wpc) : option nat :=
  match pc with
  | WCheck => Some (q_head q mod B)%nat
  | WRead i => Some (i mod B)%nat
  | _ => None
  end.
Definition racing (B : nat) (w : pworld) : Prop :=
  exists n q pc k p i v,
    nth_error (p_queues w) n = Some q /\ nth_error (p_workers w) n = Some pc /\
    nth_error (p_prods w) k = Some p /\ pr_pc p = PStoring n i v /\
    reads_slot B q pc = Some (i mod B)%nat.

Definition total (progs : list (list Z)) : nat := length (concat progs).
Fixpoint zsum (l : list Z) : Z := match l with [] => 0 | x :: r => x + zsum r end.

(** Steps a schedule gives to worker [n]. *)
Definition steps_of (n : nat) (s : list agent) : nat :=
  length (filter (fun a => match a with W m => (m =? n)%nat | _ => false end) s).
(** Items waiting in queue [n]. *)
Definition backlog (q : queue) : nat := q_tail q - q_head q.
Definition waiting (w : pworld) (n : nat) : nat :=
  match nth_error (p_queues w) n with Some q => backlog q | None => 0 end.
(** All items of all queues. *)
Definition all_processed (w : pworld) : list Z := concat (map q_done (p_queues w)).
Definition all_pushed (w : pworld) : list Z := concat (map (fun q => map snd (q_log q)) (p_queues w)).
Definition unpushed (w : pworld) : list Z := concat (map pr_items (p_prods w)).
(** Every push that starts during the schedule picks the queue min_thread picks. *)
Fixpoint min_followed (B : nat) (w : pworld) (s : list agent) : Prop :=
  match s with
  | [] => True
  | a :: rest =>
    match a with
    | P k n =>
      forall p, nth_error (p_prods w) k = Some p -> pr_pc p = PIdle ->
                n = min_thread (map (fun q => Z.of_nat (backlog q)) (p_queues w))
    | _ => True
    end /\
    forall w', pstep B w a = Ok w' -> min_followed B w' rest
  end.

(** Every push that took one of the first [j] tickets of queue [n] has returned: whoever is
    still inside a push to that queue holds a later ticket. *)
Definition settled (w : pworld) (n j : nat) : Prop :=
  (j <= length (pushed w n))%nat /\
  forall k p i v, nth_error (p_prods w) k = Some p ->
    (pr_pc p = PTicket n i v \/ pr_pc p = PStoring n i v) -> (j <= i)%nat.
(** No push is under way. *)
Definition no_push (w : pworld) : Prop := forall p, In p (p_prods w) -> pr_pc p = PIdle.
