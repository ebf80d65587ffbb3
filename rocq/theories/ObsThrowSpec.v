(** Vocabulary for observers that may throw: everything is read off the log of events. *)
From Verif Require Export ObsThrowModel ObserverSpec.

(** The observers registered after a log; a call left by an exception changes nothing. *)
Definition tmember_step {V} (l : list addr) (e : tev V) : list addr :=
  match e with
  | TLeft (Add o) (TRet ok) => l ++ [o]
  | TLeft (Remove o) (TRet ok) => remove Pos.eq_dec o l
  | TLeft Clear (TRet _) => []
  | _ => l
  end.
Definition tmembers {V} (log : list (tev V)) : list addr := fold_left tmember_step log [].

(** A callback was left by an exception. *)
Definition threw {V} (e : tev V) : Prop := exists o, e = TDataThrew o \/ e = TDiscThrew o.
(** Nothing was left by an exception: neither a callback nor a call. *)
Definition no_exception {V} (e : tev V) : Prop := ~ threw e /\ forall c x, e <> TLeft c (TExc x).

(** Observers that do not use the observable: each either returns or throws. *)
Definition plain_data {V} (bad : addr -> V -> option exc) (_ : list (tev V)) (o : addr) (v : V) : tbody V :=
  match bad o v with None => TReturn | Some x => TThrow x end.
Definition plain_disc {V} (bad : addr -> option exc) (_ : list (tev V)) (o : addr) : tbody V :=
  match bad o with None => TReturn | Some x => TThrow x end.

(** The events and the state of a run in which nothing is left by an exception, as in
    ObserverModel, where callbacks cannot throw. *)
Definition seen_ev {V} (e : tev V) : list (ev V) :=
  match e with
  | TData src o v => [Data src o v]
  | TDisc src o => [Disc src o]
  | TLeft c (TRet e) => [Ret c e]
  | _ => []
  end.
Definition t_seen {V} (w : tworld V) : world V :=
  W (t_slots w) (t_cnt w) (t_inside w) (flat_map seen_ev (t_log w)).

(** States reached by the client's calls; the client catches what it is thrown. *)
Definition treaches {V} (self : addr) (Max : Z) (on_data : list (tev V) -> addr -> V -> tbody V)
           (on_disc : list (tev V) -> addr -> tbody V) (w : tworld V) : Prop :=
  exists fuel calls, trun_all self Max on_data on_disc fuel (tfresh Max) calls = TOk w (TRet ok).
Definition ureaches {V} (self : addr) (on_data : list (tev V) -> addr -> V -> tbody V)
           (on_disc : list (tev V) -> addr -> tbody V) (locking : bool) (w : uworld V) : Prop :=
  exists fuel calls, urun_all self on_data on_disc locking fuel ufresh calls = TOk w (TRet ok).
