(** Vocabulary for observables shared by threads. *)
From Verif Require Export ObsThreadsModel.

(** What a call does when it has the observable to itself: its result, the list it leaves
    behind, and all its events. *)
Definition outcome (a : act) (l : list nat) : bool :=
  match a with
  | AddObs _ o => negb (member o l)
  | RemObs _ o => member o l
  | _ => true
  end.
Definition after (a : act) (l : list nat) : list nat :=
  match a with
  | AddObs _ o => if member o l then l else l ++ [o]
  | RemObs _ o => filter (fun y => negb (y =? o)%nat) l
  | ClearObs _ => []
  | NotifyObs _ _ => l
  end.
Definition calls (t : nat) (a : act) (l : list nat) : list tev :=
  match a with
  | NotifyObs x v => map (fun o => Deliver t x o v) l
  | ClearObs x => map (fun o => Disc t x o) l
  | _ => []
  end.
Definition whole (t : nat) (a : act) (l : list nat) : list tev :=
  Begin t a :: calls t a l ++ [End t a (outcome a l)].

(** Calls [ops], each with its thread, one after the other. *)
Fixpoint serial (l : list nat) (ops : list (nat * act)) : list tev :=
  match ops with
  | [] => []
  | (t, a) :: rest => whole t a l ++ serial (after a l) rest
  end.
Definition after_all (ops : list (nat * act)) : list nat := fold_left (fun l ta => after (snd ta) l) ops [].

(** The part of the history that concerns observable [x]. *)
Definition concerns (x : nat) (e : tev) : bool :=
  match e with
  | Begin _ a | End _ a _ => (target a =? x)%nat
  | Deliver _ y _ _ | Disc _ y _ => (y =? x)%nat
  end.
Definition about (x : nat) (h : list tev) : list tev := filter (concerns x) h.

(** Forwarding goes downwards: handlers called from [x] only call lower observables. *)
Definition downwards (rank : nat -> nat) (on_data : nat -> nat -> Z -> list act) (on_disc : nat -> nat -> list act) : Prop :=
  (forall o x v a, In a (on_data o x v) -> (rank (target a) < rank x)%nat) /\
  (forall o x a, In a (on_disc o x) -> (rank (target a) < rank x)%nat).

Definition finished (w : tworld) : Prop := forall t s, nth_error (stacks w) t = Some s -> s = [].

(** Events of thread [t]. *)
Definition who (e : tev) : nat := match e with Begin t _ | Deliver t _ _ _ | Disc t _ _ | End t _ _ => t end.
Definition events_of (t : nat) (h : list tev) : list tev := filter (fun e => (who e =? t)%nat) h.

(** What the calls [l] of thread [t] look like, each with some list of observers: for every
    observer the call of its handler and then what the handler's own calls look like. *)
Definition handler (on_data : nat -> nat -> Z -> list act) (on_disc : nat -> nat -> list act) (e : tev) : list act :=
  match e with Deliver _ x o v => on_data o x v | Disc _ x o => on_disc o x | _ => [] end.
Inductive trace (on_data : nat -> nat -> Z -> list act) (on_disc : nat -> nat -> list act) (t : nat) : list act -> list tev -> Prop :=
| trace_nil : trace on_data on_disc t [] []
| trace_call a r l h k : handled on_data on_disc t (calls t a l) h -> trace on_data on_disc t r k ->
    trace on_data on_disc t (a :: r) (Begin t a :: h ++ End t a (outcome a l) :: k)
with handled (on_data : nat -> nat -> Z -> list act) (on_disc : nat -> nat -> list act) (t : nat) : list tev -> list tev -> Prop :=
| handled_nil : handled on_data on_disc t [] []
| handled_cons e es h k : trace on_data on_disc t (handler on_data on_disc e) h -> handled on_data on_disc t es k ->
    handled on_data on_disc t (e :: es) (e :: h ++ k).

(** [turns n] is the thread whose turn it is at time [n]. *)
Definition fair (turns : nat -> nat) : Prop := forall t n, exists m, (n <= m)%nat /\ turns m = t.
Definition first (turns : nat -> nat) (n : nat) : list nat := map turns (seq 0 n).
