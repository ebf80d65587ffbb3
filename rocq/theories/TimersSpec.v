(** Vocabulary for several timers. *)
From Verif Require Export TimersModel.

(** Thread [t] is inside stop() of timer [x]. *)
Definition stopping (w : tworld) (t : tid) (x : nat) : Prop :=
  t_act w t = AClear x \/ t_act w t = AWait x \/ t_act w t = ABlocked x \/ t_act w t = AFin x.
(** Every timer is stopped by one thread only, and a timer's function only stops timers of
    lower rank: no cycles.  [K] bounds how many one call stops. *)
Record hierarchy (N : nat) (func : list tev -> nat -> list nat) (progs : nat -> list nat)
                 (owner : nat -> tid) (rank : nat -> nat) (K : nat) : Prop := {
  h_func : forall log m x, In x (func log m) -> (x < N)%nat /\ owner x = Worker m /\ (rank x < rank m)%nat;
  h_most : forall log m, (length (func log m) <= K)%nat;
  h_progs : forall k x, In x (progs k) -> (x < N)%nat /\ owner x = Outside k
}.
(** Every worker and thread [t] get a turn. *)
Definition fair (N : nat) (t : tid) (r : list tagent) : Prop :=
  (forall m, (m < N)%nat -> exists fire who, In (TWork m fire who) r) /\
  match t with Worker m => (m < N)%nat | Outside k => In (TOut k) r end.
(** Rounds enough for stop() of a timer of rank [r]. *)
Fixpoint rounds (K r : nat) : nat :=
  match r with
  | O => 5
  | S r => 5 + K * (5 + rounds K r)
  end.
(** Thread [t] is running a program: the calling threads always are, the worker of a timer while
    it runs that timer's function. *)
Definition running (N M : nat) (w : tworld) (t : tid) : Prop :=
  match t with Worker m => (m < N)%nat /\ t_pc (t_timer w m) = TCall | Outside k => (k < M)%nat end.
(** Thread [t] is about to call stop() of timer [x]. *)
Definition about_to_stop (N M : nat) (w : tworld) (t : tid) (x : nat) : Prop :=
  running N M w t /\ t_act w t = AIdle /\ exists rest, t_todo w t = x :: rest.
(** [e] is neither a return of thread [t] from stop() nor the end of the call that [t] runs. *)
Definition silent (t : tid) (e : tev) : Prop :=
  match e with EReturn u _ => u <> t | EEnd m => Worker m <> t | ECall _ => True end.
(** How often timer [m] was called and how often its function has come back. *)
Definition called (m : nat) (l : list tev) : nat := length (filter (fun e => match e with ECall n => n =? m | _ => false end)%nat l).
Definition ended (m : nat) (l : list tev) : nat := length (filter (fun e => match e with EEnd n => n =? m | _ => false end)%nat l).
