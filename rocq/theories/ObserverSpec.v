(** Vocabulary for the observer properties: everything is read off the log of
    visible events (callback entries and returns of calls). *)
From Verif Require Export ObserverModel.

Section Spec.
  Context {V : Type}.

  (** The observers registered after a log: those whose add returned ok and that
      were not since removed or cleared, in order of addition. *)
  Definition member_step (l : list addr) (e : ev V) : list addr :=
    match e with
    | Ret (Add o) ok => l ++ [o]
    | Ret (Remove o) ok => remove Pos.eq_dec o l
    | Ret Clear _ => []
    | _ => l
    end.
  Definition members (log : list (ev V)) : list addr := fold_left member_step log [].

  (** The answers the ordered-set reading dictates. *)
  Definition add_answer (cap : nat) (l : list addr) (o : addr) : err :=
    if (cap <=? length l)%nat then list_is_full
    else if in_dec Pos.eq_dec o l then already_contains else ok.
  Definition remove_answer (l : list addr) (o : addr) : err :=
    if in_dec Pos.eq_dec o l then ok else not_found.

  (** [o] was registered at some time. *)
  Definition was_added (log : list (ev V)) (o : addr) : Prop := In (Ret (Add o) ok) log.

  Definition is_data (e : ev V) : bool := match e with Data _ _ _ => true | _ => false end.
  Definition is_disc (e : ev V) : bool := match e with Disc _ _ => true | _ => false end.
  (** The deliveries in a stretch of the log. *)
  Definition deliveries (evs : list (ev V)) : list (ev V) := filter is_data evs.

  (** Bodies of callbacks that leave every registered observer registered. *)
  Inductive keeps : body V -> Prop :=
  | keeps_return : keeps Return
  | keeps_add o k : (forall e, keeps (k e)) -> keeps (Do (Add o) k)
  | keeps_notify v k : (forall e, keeps (k e)) -> keeps (Do (Notify v) k).

  (** Bodies that never clear. *)
  Inductive no_clear : body V -> Prop :=
  | nc_return : no_clear Return
  | nc_do c k : c <> Clear -> (forall e, no_clear (k e)) -> no_clear (Do c k).

  (** The client's calls, one after the other, from construction. *)
  Definition reaches (self : addr) (Max : Z) (on_data : list (ev V) -> addr -> V -> body V)
             (on_disc : list (ev V) -> addr -> body V) (w : world V) : Prop :=
    exists fuel calls, run_all self Max on_data on_disc fuel (fresh Max) calls = Ok w.

  Definition dreaches (self : addr) (locking : bool) (on_data : list (ev V) -> addr -> V -> body V)
             (on_disc : list (ev V) -> addr -> body V) (w : dworld V) : Prop :=
    exists fuel calls, drun_all self locking on_data on_disc fuel dfresh calls = Ok w.
End Spec.

(** Answers of the dynamic observable (no capacity). *)
Definition dadd_answer (l : list addr) (o : addr) : err :=
  if in_dec Pos.eq_dec o l then already_contains else ok.

(** A return that changed the set of observers (clearing always counts). *)
Definition changed {V} (e : ev V) : bool :=
  match e with
  | Ret (Add _) ok | Ret (Remove _) ok | Ret Clear _ => true
  | _ => false
  end.

(** The observer [a] removes [x] whenever it is called; the others do nothing. *)
Definition remover {V} (a x : addr) (log : list (ev V)) (o : addr) (v : V) : body V :=
  if Pos.eqb o a then Do (Remove x) (fun _ => Return) else Return.
(** The observer [a] clears the observers whenever it is called. *)
Definition clearing {V} (a : addr) (log : list (ev V)) (o : addr) (v : V) : body V :=
  if Pos.eqb o a then Do Clear (fun _ => Return) else Return.

(** Who was called, in order, in a stretch of the log. *)
Definition recipients {V} (evs : list (ev V)) : list addr :=
  flat_map (fun e => match e with Data _ o _ => [o] | _ => [] end) evs.
