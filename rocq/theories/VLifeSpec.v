(** Vocabulary for value observables and observeds with lifetimes. *)
From Verif Require Export ObserverSpec ValuesSpec VLifeModel.

(** What is known of an observable after a log of events: its value; the observeds it goes
    through, in order; those it no longer goes through but still has a pointer to, behind
    them; the number of events when it was made or its iterators last became invalid. *)
Record entry := Entry { e_val : Z; e_regs : list addr; e_old : list addr; e_since : nat }.
Record ybook := YBook { obl_at : addr -> option entry; obd_at : addr -> option Z; events : nat }.
Definition yset {A} (f : addr -> option A) (a : addr) (x : option A) : addr -> option A :=
  fun b => if Pos.eq_dec b a then x else f b.
Definition on_entry (b : ybook) (s : addr) (f : entry -> entry) : addr -> option entry :=
  match obl_at b s with Some x => yset (obl_at b) s (Some (f x)) | None => obl_at b end.
(** std::remove moves the others down and leaves the tail as it was. *)
Definition without (o : addr) (l : list addr) : list addr := remove Pos.eq_dec o l.
Definition tail_left (o : addr) (l : list addr) : list addr := skipn (length (without o l)) l.

Section Book.
  Variable ty : addr -> ity.
  Variable Max : addr -> Z.

  Definition ybook_step (b : ybook) (e : yev) : ybook :=
    let n := events b in
    let obl f := YBook f (obd_at b) (S n) in
    let obd f := YBook (obl_at b) f (S n) in
    match e with
    | YApplied s op => obl (on_entry b s (fun x => Entry (conv (ty s) (math (e_val x) op)) (e_regs x) (e_old x) (e_since x)))
    | YStore _ o v => obd (yset (obd_at b) o (Some v))
    | YRet (YMake s) _ => obl (yset (obl_at b) s (Some (Entry 0 [] [] n)))
    | YRet (YEnd s) _ => obl (yset (obl_at b) s None)
    | YRet (YObs o) _ => obd (yset (obd_at b) o (Some 0))
    | YRet (YObsEnd o) _ => obd (yset (obd_at b) o None)
    | YRet (YAdd s o) (RErr ok) =>
      obl (on_entry b s (fun x => Entry (e_val x) (e_regs x ++ [o]) (tl (e_old x)) (if vector Max s then n else e_since x)))
    | YRet (YRemove s o) (RErr ok) =>
      obl (on_entry b s (fun x =>
        if vector Max s then Entry (e_val x) (without o (e_regs x) ++ tail_left o (e_regs x)) (e_old x) (e_since x)
        else Entry (e_val x) (without o (e_regs x)) (tail_left o (e_regs x) ++ e_old x) (e_since x)))
    | YRet (YClear s) _ =>
      obl (on_entry b s (fun x =>
        if vector Max s then Entry (e_val x) [] [] n else Entry (e_val x) [] (e_regs x ++ e_old x) (e_since x)))
    | _ => YBook (obl_at b) (obd_at b) (S n)
    end.
  Definition ybooked (log : list yev) : ybook := fold_left ybook_step log (YBook (fun _ => None) (fun _ => None) 0).

  (** What went wrong in a call that goes through the observers of [s], begun at [b0], after
      [i] rounds: the observable is not there, or not the same; or the next pointer, one of
      those there were at the beginning, is to an observed that has ended. *)
  Definition replaced (b0 b : ybook) (s : addr) : Prop :=
    match obl_at b0 s, obl_at b s with Some x, Some y => e_since x <> e_since y | _, _ => True end.
  Definition dangling (b0 b : ybook) (s : addr) (i : nat) : Prop :=
    exists x y o, obl_at b0 s = Some x /\ obl_at b s = Some y /\ (i < length (e_regs x))%nat /\
      nth_error (e_regs y ++ e_old y) i = Some o /\ obd_at b o = None.
  Definition too_large (b0 : ybook) (s : addr) (op : vop) : Prop :=
    exists x, obl_at b0 s = Some x /\ overflows (ty s) (e_val x) op.
  Definition yfault (b0 b : ybook) (i : nat) (c : ycall) : Prop :=
    match c with
    | YMake s => obl_at b s <> None
    | YObs o => obd_at b o <> None
    | YObsEnd o | YHeld o => obd_at b o = None
    | YAdd s o | YRemove s o => obl_at b s = None \/ obd_at b o = None
    | YValue s => obl_at b s = None
    | YNotify s _ | YClear s | YEnd s => replaced b0 b s \/ dangling b0 b s i
    | YOp s op => replaced b0 b s \/ dangling b0 b s i \/ too_large b0 s op
    end.

  (** A fault other than a pointer to an observed that has ended. *)
  Definition misused (b0 b : ybook) (c : ycall) : Prop :=
    match c with
    | YNotify s _ | YClear s | YEnd s => replaced b0 b s
    | YOp s op => replaced b0 b s \/ too_large b0 s op
    | _ => yfault b0 b 0 c
    end.

  (** All that begins in the segment ends in it. *)
  Inductive yfinished : list yev -> Prop :=
  | yfin_nil : yfinished []
  | yfin_applied s op l : yfinished l -> yfinished (YApplied s op :: l)
  | yfin_store s o n l : yfinished l -> yfinished (YStore s o n :: l)
  | yfin_disc s o l : yfinished l -> yfinished (YDisc s o :: l)
  | yfin_call c r l1 l2 : yfinished l1 -> yfinished l2 -> yfinished (YBegin c :: l1 ++ YRet c r :: l2).

  (** The rounds made since: callbacks started, not those of calls nested in callbacks. *)
  Fixpoint rounds (depth : nat) (l : list yev) : nat :=
    match l with
    | [] => 0
    | YBegin _ :: r => rounds (S depth) r
    | YRet _ _ :: r => rounds (pred depth) r
    | YStore _ _ _ :: r | YDisc _ _ :: r => (if (depth =? 0)%nat then 1 else 0) + rounds depth r
    | YApplied _ _ :: r => rounds depth r
    end.

  (** The log stops inside a call that cannot go on. *)
  Definition ystuck (log : list yev) : Prop :=
    exists before c since, log = before ++ YBegin c :: since /\ yfinished since /\
      yfault (ybooked before) (ybooked log) (rounds 0 since) c.

  (** What a call publishes when the value was [x]: x++ and x-- the old value, --x one more
      than it, the others the new value. *)
  Definition publishes (s : addr) (x : Z) (op : vop) (v : Z) : Prop :=
    match op with
    | PostInc | PostDec => v = x
    | PreDec => v = conv (ty s) (x + 1)
    | _ => v = conv (ty s) (math x op)
    end.
  (** What a call begun at [b0] and ending at [b] returns. *)
  Definition yanswer (b0 b : ybook) (c : ycall) (r : vres) : Prop :=
    match c with
    | YAdd s o =>
      exists x, obl_at b s = Some x /\
        r = RErr (if vector Max s then if in_dec Pos.eq_dec o (e_regs x) then already_contains else ok
                  else add_answer (max_observers (Max s)) (e_regs x) o)
    | YRemove s o => exists x, obl_at b s = Some x /\ r = RErr (remove_answer (e_regs x) o)
    | YNotify _ _ => r = RErr ok
    | YOp s op => exists x v, obl_at b0 s = Some x /\ publishes s (e_val x) op v /\ r = RVal v
    | YValue s => exists x, obl_at b s = Some x /\ r = RVal (e_val x)
    | YHeld o => exists v, obd_at b o = Some v /\ r = RVal v
    | _ => r = RUnit
    end.
  (** The next own event [e] of a call begun at [b0], after [i] rounds, at [b]: the call was
      not at fault; a callback goes to the observed at position [i] now, as often as there
      were observeds to go through at the beginning. *)
  Definition own (e : yev) : Prop := match e with YStore _ _ _ | YDisc _ _ | YRet _ _ => True | _ => False end.
  Definition next_is (b0 b : ybook) (s : addr) (i : nat) (o : addr) : Prop :=
    (exists x, obl_at b0 s = Some x /\ (i < length (e_regs x))%nat) /\
    (exists y, obl_at b s = Some y /\ nth_error (e_regs y ++ e_old y) i = Some o) /\ obd_at b o <> None.
  Definition all_done (b0 : ybook) (s : addr) (i : nat) : Prop :=
    exists x, obl_at b0 s = Some x /\ i = length (e_regs x).
  Definition goes_on (b0 b : ybook) (i : nat) (c : ycall) (e : yev) : Prop :=
    ~ yfault b0 b i c /\
    match e with
    | YStore s o v =>
      next_is b0 b s i o /\
      match c with
      | YNotify s' n => s' = s /\ v = conv (ty s) n
      | YOp s' op => s' = s /\ exists x, obl_at b0 s = Some x /\ publishes s (e_val x) op v
      | _ => False
      end
    | YDisc s o => next_is b0 b s i o /\ match c with YClear s' | YEnd s' => s' = s | _ => False end
    | YRet c' r =>
      c' = c /\ yanswer b0 b c r /\ match c with YNotify s _ | YOp s _ | YClear s | YEnd s => all_done b0 s i | _ => i = O end
    | _ => True
    end.
  Definition yfair (log : list yev) : Prop :=
    forall before c since e after, log = before ++ YBegin c :: since ++ e :: after -> yfinished since -> own e ->
      goes_on (ybooked before) (ybooked (before ++ YBegin c :: since)) (rounds 0 since) c e.

  (** Callbacks start only in observeds that exist, by observables that exist and still have
      a pointer to them. *)
  Definition lives (log : list yev) : Prop :=
    forall before e after, log = before ++ e :: after ->
      match e with
      | YStore s o _ | YDisc s o =>
        obd_at (ybooked before) o <> None /\
        exists x, obl_at (ybooked before) s = Some x /\ In o (e_regs x ++ e_old x)
      | _ => True
      end.

  (** With callbacks that return at once: what cannot run, and what is done. *)
  Definition blocked (b : ybook) (s : addr) : Prop :=
    match obl_at b s with Some x => exists o, In o (e_regs x) /\ obd_at b o = None | None => True end.
  Definition yblocked (b : ybook) (c : ycall) : Prop :=
    match c with
    | YNotify s _ | YClear s | YEnd s => blocked b s
    | YOp s op => blocked b s \/ too_large b s op
    | _ => yfault b b 0 c
    end.
  Definition yeffect (b : ybook) (c : ycall) (evs : list yev) : Prop :=
    match c with
    | YNotify s n => exists x, obl_at b s = Some x /\ evs = map (fun o => YStore s o (conv (ty s) n)) (e_regs x)
    | YOp s op => exists x v, obl_at b s = Some x /\ publishes s (e_val x) op v /\
        evs = YApplied s op :: map (fun o => YStore s o v) (e_regs x)
    | YClear s | YEnd s => exists x, obl_at b s = Some x /\ evs = map (fun o => YDisc s o) (e_regs x)
    | _ => evs = []
    end.

  (** No existing observable goes through [o]. *)
  Definition unlisted (b : ybook) (o : addr) : Prop :=
    forall s x, obl_at b s = Some x -> ~ In o (e_regs x).
  (** The calls begun and not ended. *)
  Definition yopen_step (l : list ycall) (e : yev) : list ycall :=
    match e with YBegin c => c :: l | YRet _ _ => tl l | _ => l end.
  Definition yopen (log : list yev) : list ycall := fold_left yopen_step log [].
  (** Observeds end only by the program itself, not in callbacks, and only when no observable
      goes through them. *)
  Definition orderly (log : list yev) : Prop :=
    forall before o r after, log = before ++ YRet (YObsEnd o) r :: after ->
      yopen before = [YObsEnd o] /\ unlisted (ybooked before) o.
End Book.

Definition yreaches ty Max upd disc (w : yworld) : Prop :=
  exists fuel calls, yrun_all ty Max upd disc fuel yfresh calls = YOk w.
(** The events of a run that ended, or stopped at undefined behaviour. *)
Definition ylog (x : yres yworld) : option (list yev) :=
  match x with YOk w => Some (y_log w) | YUB log => Some log | YFuel => None end.
(** Callbacks that return at once. *)
Definition idle_update (upd : list yev -> addr -> Z -> ybody) : Prop := forall log o n, upd log o n = YReturn.
Definition idle_disc (disc : list yev -> addr -> ybody) : Prop := forall log o, disc log o = YReturn.
(** The calls that go through the observeds of [s]. *)
Definition goes_through (s : addr) (c : ycall) : Prop :=
  match c with YNotify s' _ | YOp s' _ | YClear s' | YEnd s' => s' = s | _ => False end.
