(** Vocabulary for networks of stages and pools. *)
From Verif Require Export FlowModel.

(** The items for node [m] among pushes. *)
Definition for_node (m : nat) (l : list (nat * Z)) : list Z :=
  map snd (filter (fun x => (fst x =? m)%nat) l).
(** What the functions called were going to push, in the order of the calls; of one worker. *)
Definition outs (log : list fev) : list (nat * Z) :=
  flat_map (fun e => match e with FCall _ _ _ out => out | _ => [] end) log.
Definition outs_of (m n : nat) (log : list fev) : list (nat * Z) :=
  flat_map (fun e => match e with
                     | FCall a b _ out => if (a =? m)%nat && (b =? n)%nat then out else []
                     | _ => [] end) log.
(** What one thread has pushed, in order. *)
Definition sent_by (src : source) (log : list fev) : list (nat * Z) :=
  flat_map (fun e => match e with
                     | FPush s m _ v => if source_eq s src then [(m, v)] else []
                     | _ => [] end) log.
(** What was pushed into a queue, in the order of the places. *)
Definition in_queue (m q : nat) (log : list fev) : list Z :=
  flat_map (fun e => match e with
                     | FPush _ a b v => if (a =? m)%nat && (b =? q)%nat then [v] else []
                     | _ => [] end) log.
(** What the function of a node, or one of its workers, was called with. *)
Definition called (m : nat) (log : list fev) : list Z :=
  flat_map (fun e => match e with FCall a _ v _ => if (a =? m)%nat then [v] else [] | _ => [] end) log.
Definition called_by (m n : nat) (log : list fev) : list Z :=
  flat_map (fun e => match e with
                     | FCall a b v _ => if (a =? m)%nat && (b =? n)%nat then [v] else []
                     | _ => [] end) log.

(** What a thread has been told to push: its program; the results of the calls so far. *)
Definition told (progs : nat -> list (nat * Z)) (src : source) (log : list fev) : list (nat * Z) :=
  match src with Outsider k => progs k | Worker m n => outs_of m n log end.

Section Flow.
  Variable nodes : list kind.
  Variable B : nat -> nat.
  Variable func : list fev -> nat -> Z -> list (nat * Z).
  Notation kind_of := (kind_of nodes).

  (** Functions and threads push into existing nodes only. *)
  Definition within (l : list (nat * Z)) : Prop := forall m v, In (m, v) l -> (m < length nodes)%nat.
  (** The function of [k] may push into [m]. *)
  Definition feeds (k m : nat) : Prop := exists log v x, In (m, x) (func log k v).
  (** Nobody but [src] pushes into [m]. *)
  Definition only_source (progs : nat -> list (nat * Z)) (m : nat) (src : source) : Prop :=
    (forall k, Outsider k <> src -> for_node m (progs k) = []) /\
    (forall a b, (b < workers_of (kind_of a))%nat -> feeds a m -> Worker a b = src).
  (** A thread will not push into [m] any more. *)
  Definition through_with (m : nat) (x : sender) : Prop :=
    for_node m (s_items x) = [] /\
    match s_pc x with SIdle => True | STicket a _ _ _ | SStoring a _ _ _ => a <> m end.
  (** A node is destroyed when all others that feed it have been, and no thread outside will
      push into it any more. *)
  Definition in_turn (w : fworld) (a : fagent) : Prop :=
    match a with
    | FDestroy m =>
      (forall k, (k < length nodes)%nat -> k <> m -> feeds k m -> gone nodes w k = true) /\
      (forall k, through_with m (f_send w (Outsider k)))
    | _ => True
    end.
  Fixpoint feeders_first (w : fworld) (s : list fagent) : Prop :=
    match s with
    | [] => True
    | a :: rest => in_turn w a /\ forall w', fstep nodes B func w a = Ok w' -> feeders_first w' rest
    end.
  (** No queue was ever given more items than it has places. *)
  Definition fits (w : fworld) : Prop := forall m q, (length (in_queue m q (f_log w)) <= B m)%nat.
  (** The threads outside have made all their pushes, all nodes have been destroyed. *)
  Definition all_over (w : fworld) : Prop :=
    (forall k, idle_sender (f_send w (Outsider k)) = true) /\
    (forall m, (m < length nodes)%nat -> gone nodes w m = true).
  (** Pools have as many workers as queues. *)
  Definition whole : Prop := forall k, In k nodes -> k = Stage \/ k = Pool 8.
  Definition sound_sizes : Prop := forall n, In (Pool n) nodes -> (n <= 8)%nat.
  (** Steps a schedule gives to a worker. *)
  Definition turns (m n : nat) (s : list fagent) : nat :=
    length (filter (fun a => match a with FWork x y _ => (x =? m)%nat && (y =? n)%nat | _ => false end) s).
  (** Items waiting in a queue. *)
  Definition pending (w : fworld) (m q : nat) : nat :=
    (length (in_queue m q (f_log w)) - length (called_by m q (f_log w)))%nat.
End Flow.
