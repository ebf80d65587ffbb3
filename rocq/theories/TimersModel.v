(** Several interval_event objects whose functions call stop() of one another, and any number
    of other threads calling stop() (include/xitren/func/interval_event.hpp).

    Simplifications: as in IntervalModel, and: all objects have been constructed before anything
    runs and none is destroyed; whether a check finds its period over is arbitrary. *)
From Verif Require Export Base.

Inductive tid := Worker (m : nat) | Outside (k : nat).
Definition tid_eqb (a b : tid) : bool :=
  match a, b with
  | Worker m, Worker n | Outside m, Outside n => (m =? n)%nat
  | _, _ => false
  end.
(** Worker: where the lambda (44-55) is: sleep and clock (45-46), test_and_set (47), the
    comparison (48), inside function_() (50), sleep (52), notify_one (54). *)
Inductive tpc := TStart | TTest | TCheck | TCall | TPause | TNotify | TDone.
(** A thread in stop() of timer [x] (70-78): about to clear (74), about to load the flag (75),
    blocked, about to set stop_ (76). *)
Inductive act := AIdle | AClear (x : nat) | AWait (x : nat) | ABlocked (x : nat) | AFin (x : nat).
(** keep_running_ (131), stop_ (135), the worker. *)
Record timer := Tm { t_flag : bool; t_stop : bool; t_pc : tpc }.
(** Recorded only: function of [m] called, has returned; stop() of [x] called by [t] has returned. *)
Inductive tev := ECall (m : nat) | EEnd (m : nat) | EReturn (t : tid) (x : nat).
(** [t_todo t]: the timers thread [t] still has to stop (within the present call of its
    function, if it is a worker). *)
Record tworld := TW { t_timer : nat -> timer; t_act : tid -> act; t_todo : tid -> list nat; t_log : list tev }.

Definition put_timer (w : tworld) (m : nat) (x : timer) : tworld :=
  TW (fun a => if (a =? m)%nat then x else t_timer w a) (t_act w) (t_todo w) (t_log w).
Definition put_tpc (w : tworld) (m : nat) (pc : tpc) : tworld :=
  put_timer w m (Tm (t_flag (t_timer w m)) (t_stop (t_timer w m)) pc).
Definition put_act (w : tworld) (t : tid) (a : act) : tworld :=
  TW (t_timer w) (fun b => if tid_eqb b t then a else t_act w b) (t_todo w) (t_log w).
Definition put_todo (w : tworld) (t : tid) (l : list nat) : tworld :=
  TW (t_timer w) (t_act w) (fun b => if tid_eqb b t then l else t_todo w b) (t_log w).
Definition tnote (w : tworld) (e : tev) : tworld := TW (t_timer w) (t_act w) (t_todo w) (t_log w ++ [e]).

(** Who moves; [fire]: the comparison (48) finds the period over; [who]: whom notify_one wakes
    if that thread is blocked on it; a blocked wait may re-check on its own. *)
Inductive tagent := TWork (m : nat) (fire : bool) (who : tid) | TOut (k : nat) | TSpurious (t : tid).

Section Timers.
  Variables N M : nat.                                (* timers; outside threads *)
  Variable func : list tev -> nat -> list nat.        (* what a call of the function of a timer stops *)

  Definition tids : list tid := map Worker (seq 0 N) ++ map Outside (seq 0 M).
  Definition blocked_on (w : tworld) (m : nat) (t : tid) : bool :=
    match t_act w t with ABlocked x => (x =? m)%nat | _ => false end.
  (** notify_one (54). *)
  Definition twake (w : tworld) (m : nat) (who : tid) : tworld :=
    if blocked_on w m who then put_act w who (AWait m)
    else match filter (blocked_on w m) tids with
         | [] => w
         | t :: _ => put_act w t (AWait m)
         end.

  (** A thread with timers to stop (70-78). *)
  Definition thread_step (w : tworld) (t : tid) : tworld :=
    match t_act w t with
    | AIdle =>
      match t_todo w t with
      | [] => w
      | x :: rest =>
        let w1 := put_todo w t rest in
        if t_stop (t_timer w x) then tnote w1 (EReturn t x) else put_act w1 t (AClear x)
      end
    | AClear x => put_act (put_timer w x (Tm false (t_stop (t_timer w x)) (t_pc (t_timer w x)))) t (AWait x)
    | AWait x => put_act w t (if t_flag (t_timer w x) then AFin x else ABlocked x)
    | ABlocked _ => w
    | AFin x =>
      tnote (put_act (put_timer w x (Tm (t_flag (t_timer w x)) true (t_pc (t_timer w x)))) t AIdle) (EReturn t x)
    end.

  (** A worker (44-55). *)
  Definition worker_step (w : tworld) (m : nat) (fire : bool) (who : tid) : tworld :=
    match t_pc (t_timer w m) with
    | TStart => put_tpc w m TTest
    | TTest => put_timer w m (Tm true (t_stop (t_timer w m)) (if t_flag (t_timer w m) then TCheck else TNotify))
    | TCheck =>
      if fire then tnote (put_todo (put_tpc w m TCall) (Worker m) (func (t_log w) m)) (ECall m)
      else put_tpc w m TPause
    | TCall =>
      match t_act w (Worker m), t_todo w (Worker m) with
      | AIdle, [] => tnote (put_tpc w m TPause) (EEnd m)
      | _, _ => thread_step w (Worker m)
      end
    | TPause => put_tpc w m TTest
    | TNotify => put_tpc (twake w m who) m TDone
    | TDone => w
    end.

  Definition tstep (w : tworld) (a : tagent) : tworld :=
    match a with
    | TWork m fire who => if (m <? N)%nat then worker_step w m fire who else w
    | TOut k => if (k <? M)%nat then thread_step w (Outside k) else w
    | TSpurious t => match t_act w t with ABlocked x => put_act w t (AWait x) | _ => w end
    end.
  Definition trun (w : tworld) (s : list tagent) : tworld := fold_left tstep s w.
  Definition tstart (progs : nat -> list nat) : tworld :=
    TW (fun _ => Tm true false TStart) (fun _ => AIdle) (fun t => match t with Worker _ => [] | Outside k => progs k end) [].
End Timers.
