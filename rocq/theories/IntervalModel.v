(** Model of include/xitren/func/interval_event.hpp: an interleaving machine of the worker
    thread, the constructing thread and any number of threads calling stop(), the destructor
    and period().

    Simplifications: sequentially consistent interleaving of the statements; clock readings are
    integers in nanoseconds and arithmetic on them does not overflow; sleeping is a step that may
    take any time (so sleep_for(10ms) in the worker orders nothing); period_between_checks_ is
    only read by the sleep. *)
From Verif Require Export Base.

(** Worker: where the lambda (44-55) is. *)
Inductive wpc :=
| WStart                (* sleep, then read the clock (45-46) *)
| WTest                 (* keep_running_.test_and_set() (47) *)
| WCheck                (* the comparison (48) *)
| WFire (t : Z)         (* last_time += period_; function_() is about to start (49-50) *)
| WCall                 (* inside function_() *)
| WCbClear | WCbWait | WCbFin    (* function_() has called stop(): 74, 75, 76 *)
| WPause                (* sleep_for(period_between_checks_) (52) *)
| WNotify               (* keep_running_.notify_one() (54) *)
| WDone.

(** A thread calling stop() (70-78); [d]: from the destructor (65). *)
Inductive cpc :=
| CIdle
| CClear (d : bool)     (* stop_ was false; about to clear (74) *)
| CWait (d : bool)      (* wait(false): about to load the flag (75) *)
| CBlocked (d : bool)   (* saw false, blocked until notified *)
| CFin (d : bool).      (* wait returned; about to set stop_ (76) *)

Inductive event :=
| EStart (t : Z)                         (* last_time initialised *)
| ECheck (t p : Z) (fired : bool)        (* comparison made at clock reading [t] with period [p] (ms) *)
| ECall (t p : Z)                        (* function_() called; [p] added to last_time *)
| EClear (i : nat)                       (* stop() of thread [i] cleared the flag *)
| EReturn (i : nat)                      (* stop() or destructor of thread [i] returned *)
| EPeriod (p : Z)                        (* period(p) called *)
| EDestroyed.

Record st := St {
  alive : bool; initd : bool;            (* object exists; period_, period_between_checks_, stop_ initialised *)
  flag : bool;                           (* keep_running_ (131) *)
  stopf : bool;                          (* stop_ (135) *)
  period : Z;                            (* period_ (133), milliseconds *)
  last : Z;                              (* last_time (46), nanoseconds *)
  worker : wpc;
  callers : list cpc;
  log : list event                       (* newest first *)
}.
(** The thread has just been started by the constructor (44); [n] threads may use the object. *)
Definition init (p : Z) (n : nat) : st := St true false true false p 0 WStart (repeat CIdle n) [].

Definition set_worker s w := St (alive s) (initd s) (flag s) (stopf s) (period s) (last s) w (callers s) (log s).
Definition set_flag s f := St (alive s) (initd s) f (stopf s) (period s) (last s) (worker s) (callers s) (log s).
Definition set_stopf s f := St (alive s) (initd s) (flag s) f (period s) (last s) (worker s) (callers s) (log s).
Definition set_last s t := St (alive s) (initd s) (flag s) (stopf s) (period s) t (worker s) (callers s) (log s).
Definition set_period s p := St (alive s) (initd s) (flag s) (stopf s) p (last s) (worker s) (callers s) (log s).
Definition set_initd s := St (alive s) true (flag s) (stopf s) (period s) (last s) (worker s) (callers s) (log s).
Definition set_dead s := St false (initd s) (flag s) (stopf s) (period s) (last s) (worker s) (callers s) (log s).
Definition set_callers s c := St (alive s) (initd s) (flag s) (stopf s) (period s) (last s) (worker s) c (log s).
Definition emit s e := St (alive s) (initd s) (flag s) (stopf s) (period s) (last s) (worker s) (callers s) (e :: log s).

Fixpoint put_at (l : list cpc) (i : nat) (c : cpc) : list cpc :=
  match l, i with
  | [], _ => []
  | _ :: l', O => c :: l'
  | x :: l', S j => x :: put_at l' j c
  end.
Definition set_caller s i c := set_callers s (put_at (callers s) i c).

(** notify_one: wakes [who] if it is blocked, otherwise the first blocked thread, if any. *)
Definition awake (c : cpc) : cpc := match c with CBlocked d => CWait d | c => c end.
Fixpoint wake_first (l : list cpc) : list cpc :=
  match l with
  | [] => []
  | CBlocked d :: l' => CWait d :: l'
  | c :: l' => c :: wake_first l'
  end.
Definition notify (l : list cpc) (who : nat) : list cpc :=
  match nth_error l who with
  | Some (CBlocked d) => put_at l who (CWait d)
  | _ => wake_first l
  end.

Definition ms : Z := 1000000.

(** One worker step at clock reading [now]; None: blocked or finished. *)
Definition wstep (s : st) (now : Z) (who : nat) : res (option st) :=
  match worker s with
  | WStart => Ok (Some (emit (set_last (set_worker s WTest) now) (EStart now)))
  | WTest =>
    if alive s then Ok (Some (set_flag (set_worker s (if flag s then WCheck else WNotify)) true)) else UB
  | WCheck =>
    if alive s && initd s then
      let fired := period s <=? now - last s in
      Ok (Some (emit (set_worker s (if fired then WFire now else WPause)) (ECheck now (period s) fired)))
    else UB
  | WFire t =>
    if alive s then Ok (Some (emit (set_last (set_worker s WCall) (last s + period s * ms)) (ECall t (period s)))) else UB
  | WCall => Ok (Some (set_worker s WPause))                      (* function_() returns *)
  | WCbClear => if alive s then Ok (Some (set_flag (set_worker s WCbWait) false)) else UB
  | WCbWait => if alive s then if flag s then Ok (Some (set_worker s WCbFin)) else Ok None else UB
  | WCbFin => if alive s then Ok (Some (set_stopf (set_worker s WCall) true)) else UB
  | WPause => if alive s && initd s then Ok (Some (set_worker s WTest)) else UB
  | WNotify => if alive s then Ok (Some (set_worker (set_callers s (notify (callers s) who)) WDone)) else UB
  | WDone => Ok None
  end.

Definition cstep (s : st) (i : nat) : res (option st) :=
  match nth_error (callers s) i with
  | Some (CClear d) => if alive s then Ok (Some (emit (set_flag (set_caller s i (CWait d)) false) (EClear i))) else UB
  | Some (CWait d) =>
    if alive s then Ok (Some (set_caller s i (if flag s then CFin d else CBlocked d))) else UB
  | Some (CFin d) =>
    if alive s then
      let s1 := set_stopf (set_caller s i CIdle) true in
      let s2 := if d then emit (set_dead s1) EDestroyed else s1 in
      Ok (Some (emit s2 (EReturn i)))
    else UB
  | _ => Ok None
  end.

Inductive label :=
| LInit                          (* the constructor goes on to 56-57 *)
| LWorker (now : Z) (who : nat)
| LCbStop                        (* function_() calls stop() *)
| LStop (i : nat) (d : bool)     (* thread [i] calls stop() or the destructor *)
| LCaller (i : nat)
| LSpurious (i : nat)            (* the wait of thread [i] re-checks without notification *)
| LPeriod (p : Z).               (* period(p) (112-116) *)

Definition step (s : st) (l : label) : res (option st) :=
  match l with
  | LInit => Ok (if initd s then None else Some (set_initd s))
  | LWorker now who => wstep s now who
  | LCbStop =>
    match worker s with
    | WCall => if alive s then Ok (Some (if stopf s then s else set_worker s WCbClear)) else UB
    | _ => Ok None
    end
  | LStop i d =>
    match nth_error (callers s) i with
    | Some CIdle =>
      if initd s then
        if alive s then
          if stopf s then Ok (Some (emit (if d then emit (set_dead s) EDestroyed else s) (EReturn i)))
          else Ok (Some (set_caller s i (CClear d)))
        else UB
      else Ok None
    | _ => Ok None
    end
  | LCaller i => cstep s i
  | LSpurious i =>
    match nth_error (callers s) i with
    | Some (CBlocked d) => Ok (Some (set_caller s i (CWait d)))
    | _ => Ok None
    end
  | LPeriod p => if initd s then if alive s then Ok (Some (emit (set_period s p) (EPeriod p))) else UB else Ok None
  end.

(** Schedules; a label that is not enabled is skipped. *)
Fixpoint run (s : st) (ls : list label) : res st :=
  match ls with
  | [] => Ok s
  | l :: ls' =>
    match step s l with
    | Ok (Some s') => run s' ls'
    | Ok None => run s ls'
    | UB => UB
    | Fuel => Fuel
    end
  end.
