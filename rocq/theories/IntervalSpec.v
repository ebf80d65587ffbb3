(** Vocabulary for the interval_event properties, about the log of observable events. *)
From Verif Require Export IntervalModel.

(** States the program can be in. *)
Definition reachable (p : Z) (n : nat) (s : st) : Prop := exists ls, run (init p n) ls = Ok s.

Definition is_call (e : event) : bool := match e with ECall _ _ => true | _ => false end.
Definition is_return (e : event) : bool := match e with EReturn _ => true | _ => false end.
Definition count_calls (l : list event) : nat := length (filter is_call l).
(** Call times, oldest first. *)
Fixpoint call_times (l : list event) : list Z :=
  match l with
  | [] => []
  | ECall t _ :: l' => call_times l' ++ [t]
  | _ :: l' => call_times l'
  end.
(** Sum of the periods in force when the calls were made, in nanoseconds. *)
Fixpoint elapsed_periods (l : list event) : Z :=
  match l with
  | [] => 0
  | ECall _ p :: l' => p * 1000000 + elapsed_periods l'
  | _ :: l' => elapsed_periods l'
  end.
(** The period last set, [p] being the constructor's. *)
Fixpoint in_force (p : Z) (l : list event) : Z :=
  match l with
  | [] => p
  | EPeriod q :: _ => q
  | _ :: l' => in_force p l'
  end.
(** Schedules in which nobody changes the period; in which the callback does not call stop. *)
Definition changes_period (l : label) : bool := match l with LPeriod _ => true | _ => false end.
Definition callback_stops (l : label) : bool := match l with LCbStop => true | _ => false end.
(** Steps of the worker and of thread [i] inside its stop(). *)
Definition works_for (i : nat) (l : label) : bool :=
  match l with LWorker _ _ => true | LCaller j => Nat.eqb j i | _ => false end.
Definition enabled (s : st) (l : label) : Prop := exists s', step s l = Ok (Some s').
(** When the worker initialised last_time. *)
Fixpoint start_of (l : list event) : option Z :=
  match l with
  | [] => None
  | EStart t :: _ => Some t
  | _ :: l' => start_of l'
  end.
(** Checks and calls only. *)
Definition is_timed (e : event) : bool := match e with ECheck _ _ _ | ECall _ _ => true | _ => false end.
Definition timeline (l : list event) : list event := filter is_timed l.
(** Newest first: every successful check is followed by its call, before any other check;
    [Some t]: the call for the check at [t] is still to come. *)
Inductive paired : list event -> option Z -> Prop :=
| paired_nil : paired [] None
| paired_no l t p : paired l None -> paired (ECheck t p false :: l) None
| paired_yes l t p : paired l None -> paired (ECheck t p true :: l) (Some t)
| paired_call l t p : paired l (Some t) -> paired (ECall t p :: l) None.
(** Steps actually taken by a schedule. *)
Fixpoint steps_taken (s : st) (ls : list label) : nat :=
  match ls with
  | [] => 0
  | l :: ls' =>
    match step s l with
    | Ok (Some s') => S (steps_taken s' ls')
    | Ok None => steps_taken s ls'
    | _ => 0
    end
  end.
(** Thread [i] is inside stop() (or the destructor) and has cleared the flag. *)
Definition in_stop (s : st) (i : nat) : Prop :=
  exists d, nth_error (callers s) i = Some (CWait d) \/ nth_error (callers s) i = Some (CBlocked d) \/
            nth_error (callers s) i = Some (CFin d).
(** A stretch of schedule in which the worker and thread [i] each get a turn, and nobody else. *)
Definition fair_round (i : nat) (r : list label) : Prop :=
  forallb (works_for i) r = true /\ In (LCaller i) r /\ exists now who, In (LWorker now who) r.
(** No two threads are inside stop() or the destructor at the same time. *)
Fixpoint stops_in_turn (s : st) (ls : list label) : Prop :=
  match ls with
  | [] => True
  | l :: ls' =>
    (forall i d, l = LStop i d -> forall j c, j <> i -> nth_error (callers s) j = Some c -> c = CIdle) /\
    match step s l with
    | Ok (Some s') => stops_in_turn s' ls'
    | Ok None => stops_in_turn s ls'
    | _ => True
    end
  end.
(** The plain (not atomic) members a setter may write, and those the worker is about to read:
    period_ in the comparison (48) and the addition (49), period_between_checks_ in the sleep (52). *)
Inductive setting := Period | PeriodBetweenChecks.
Definition about_to_read (s : st) (m : setting) : Prop :=
  match m with
  | Period => worker s = WCheck \/ exists t, worker s = WFire t
  | PeriodBetweenChecks => worker s = WPause
  end.
