(** Vocabulary for one stage or pool in detail. *)
From Verif Require Export PoolModel PipelineSpec.

Definition count (f : oev -> bool) (log : list oev) : nat := length (filter f log).
(** Pushes accepted into queue [q]; items its worker has removed; what is waiting. *)
Definition accepted (q : nat) (log : list oev) : nat :=
  count (fun e => match e with ETicket _ a _ => (a =? q)%nat | _ => false end) log.
Definition removed (q : nat) (log : list oev) : nat :=
  count (fun e => match e with ETake a => (a =? q)%nat | _ => false end) log.
Definition waiting_in (q : nat) (log : list oev) : nat := accepted q log - removed q log.
(** Waiting in all eight queues of a pool. *)
Definition outstanding (log : list oev) : nat := list_sum (map (fun q => waiting_in q log) (seq 0 8)).
(** What worker [n] has measured, oldest first. *)
Definition measured (n : nat) (log : list oev) : list (Z * Z) :=
  flat_map (fun e => match e with EReturn a e b => if (a =? n)%nat then [(e, b)] else [] | _ => [] end) log.
(** As much of that as is in the statistics. *)
Definition added (n : nat) (log : list oev) : nat :=
  count (fun e => match e with EMeasure a => (a =? n)%nat | _ => false end) log.
(** Calls worker [n] has made. *)
Definition calls (n : nat) (log : list oev) : nat :=
  count (fun e => match e with ECall a _ _ _ _ => (a =? n)%nat | _ => false end) log.
(** The last ten, newest first. *)
Definition last_ten (l : list (Z * Z)) : list (Z * Z) := firstn 10 (rev l).
Definition tenth (x : Z) : Z := Z.quot x 10.

(** Worker and outside caller at the statistics at once. *)
Definition stat_race (w : oworld) : Prop :=
  (exists m, o_pc w 0 = OStat m) /\ exists r time, o_ask w r = Some time.
(** Only thread [k] pushes. *)
Definition one_pusher (progs : nat -> list Z) (k : nat) : Prop := forall j, j <> k -> progs j = [].
(** A push of [k] and nothing else of [k] ([l]: what happened since it was entered). *)
Definition same_push (k : nat) (l : list oev) : Prop :=
  forall e, In e l -> match e with EBegin a | ETicket a _ _ => a <> k | _ => True end.
(** Outside callers ask only while the function runs, and it does not return before they have
    their answer: as when the function itself asks. *)
Fixpoint asks_inside (size B : nat) (w : oworld) (s : list oagent) : Prop :=
  match s with
  | [] => True
  | a :: rest =>
    match a with
    | OAsk _ _ => o_pc w 0 = OCall
    | OWork 0 _ => forall r, o_ask w r = None
    | _ => True
    end /\ forall w', ostep false size B w a = Ok w' -> asks_inside size B w' rest
  end.
(** Some partial sum, newest first, leaves the range of int. *)
Definition leaves_int (l : list Z) : Prop := exists k, ~ (- 2 ^ 31 <= zsum (firstn k l) < 2 ^ 31).
(** Thread [k] has one item, [nth k vs], if [k] is below the length of [vs]. *)
Definition one_each (vs : list Z) (k : nat) : list Z := match nth_error vs k with Some v => [v] | None => [] end.
