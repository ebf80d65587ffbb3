(** Value observables whose observeds' functions, or whose disconnect(), may throw
    (include/xitren/comm/values/observable.hpp:22-267 and 269-500, values/observed.hpp).
    observed::notification (observed.hpp:58-62) is noexcept, and so are all the operators
    (36-146, 282-392), the destructors (163, 409), add_observer, remove_observer,
    clear_observers and notify_observers (173-239, 419-480): an exception that would leave
    one of them calls std::terminate, which ends the program.
    Objects, calls and events are those of VLifeModel, with its simplifications; what a
    terminate handler does is not modelled, nor that emplace_back (423) may run out of memory. *)
From Verif Require Export VLifeModel.

(** What a callback does: it returns, throws, or makes a call and goes on.  An exception it
    throws and catches itself is no concern of the caller. *)
Inductive zbody := ZReturn | ZThrow | ZDo (c : ycall) (k : list yev -> zbody).

(** Outcomes: as in VLifeModel, or the program ended when the callback of [o] threw, after
    the events [log]. *)
Inductive zres (A : Type) := ZOk (a : A) | ZUB (log : list yev) | ZEnd (o : addr) (log : list yev) | ZFuel.
Arguments ZOk {A} a. Arguments ZUB {A} log. Arguments ZEnd {A} o log. Arguments ZFuel {A}.
Definition zbind {A B} (x : zres A) (f : A -> zres B) : zres B :=
  match x with ZOk a => f a | ZUB l => ZUB l | ZEnd o l => ZEnd o l | ZFuel => ZFuel end.
Definition zof {A} (x : yres A) : zres A :=
  match x with YOk a => ZOk a | YUB l => ZUB l | YFuel => ZFuel end.

Section VThrow.
  Variable ty : addr -> ity.
  Variable Max : addr -> Z.
  (** The functions of the observeds and the overrides of disconnect. *)
  Variable on_update : list yev -> addr -> Z -> zbody.
  Variable on_disc : list yev -> addr -> zbody.

  (** The callback of [o]: it is called by notification() or by clear_observers(), both
      noexcept. *)
  Fixpoint zbody_run (step : yworld -> ycall -> zres yworld) (o : addr) (b : zbody) (w : yworld) : zres yworld :=
    match b with
    | ZReturn => ZOk w
    | ZThrow => ZEnd o (y_log w)
    | ZDo c k => zbind (step w c) (fun w' => zbody_run step o (k (y_log w')) w')
    end.

  (** The loops (216-218, 235-237; 458-460, 475-477). *)
  Fixpoint zloop (enter : yworld -> addr -> yworld) (cb : list yev -> addr -> zbody)
           (step : yworld -> ycall -> zres yworld) (s : addr) (ver i k : nat) (w : yworld) : zres yworld :=
    match k with
    | O => ZOk w
    | S k' =>
      zbind (zof (yneed w (y_cell w s))) (fun x =>
      zbind (zof (ylift w (slot (y_arr x) i))) (fun p =>
      zbind (zof (yneed w p)) (fun o =>
      zbind (zof (yneed w (y_obs w o))) (fun _ =>
      zbind (zbody_run step o (cb (y_log w) o) (enter w o)) (fun w1 =>
      zbind (zof (ysame w1 s ver)) (zloop enter cb step s ver (S i) k'))))))
    end.

  (** notify_observers (230-239, 472-479). *)
  Definition znotify (step : yworld -> ycall -> zres yworld) (s : addr) (n : Z) (w : yworld) : zres (yworld * vres) :=
    zbind (zof (yneed w (y_cell w s))) (fun x =>
    if negb (vector Max s) && (max_observers (Max s) <? y_cnt x)%nat then ZOk (w, RErr internal_data_broken)
    else zbind (zloop (fun w o => yemit (put_obs w o (Some n)) (YStore s o n)) (fun log o => on_update log o n)
                      step s (y_ver x) 0 (y_cnt x) w) (fun w1 => ZOk (w1, RErr ok))).
  (** clear_observers up to the emptying (216-218, 458-460). *)
  Definition zdisconnect (step : yworld -> ycall -> zres yworld) (s : addr) (w : yworld) : zres yworld :=
    zbind (zof (yneed w (y_cell w s))) (fun x =>
    zloop (fun w o => yemit w (YDisc s o)) on_disc step s (y_ver x) 0 (y_cnt x) w).

  (** The calls that run callbacks (36-146, 163, 213-239; 282-392, 409, 455-480); the others
      are as in VLifeModel. *)
  Definition zdo (self : yworld -> ycall -> zres yworld) (w : yworld) (c : ycall) : zres (yworld * vres) :=
    match c with
    | YEnd s =>
      zbind (zdisconnect self s w) (fun w1 =>
      zbind (zof (yneed w1 (y_cell w1 s))) (fun _ => ZOk (put_cell w1 s None, RUnit)))
    | YClear s =>
      zbind (zdisconnect self s w) (fun w1 =>
      zbind (zof (yneed w1 (y_cell w1 s))) (fun x =>
      ZOk (put_cell w1 s (Some (if vector Max s then YCell (y_val x) [] 0 (length (y_log w1))
                                else YCell (y_val x) (y_arr x) 0 (y_ver x))), RUnit)))
    | YNotify s n => znotify self s (conv (ty s) n) w
    | YOp s op =>
      zbind (zof (yneed w (y_cell w s))) (fun x =>
      let w0 := yemit (put_cell w s (Some (YCell (apply_atomic (ty s) (y_val x) op) (y_arr x) (y_cnt x) (y_ver x))))
                      (YApplied s op) in
      zbind (zof (ylift w0 (published (ty s) (y_val x) op))) (fun p =>
      zbind (znotify self s p w0) (fun '(w1, _) => ZOk (w1, RVal p))))
    | _ => zof (ydo ty Max (fun _ _ _ => YReturn) (fun _ _ => YReturn) (fun w _ => YOk w) w c)
    end.

  (** One call; [fuel] bounds the nesting of calls from callbacks. *)
  Fixpoint zrun (fuel : nat) (w : yworld) (c : ycall) : zres yworld :=
    match fuel with
    | O => ZFuel
    | S f => zbind (zdo (zrun f) (yemit w (YBegin c)) c) (fun '(w1, r) => ZOk (yemit w1 (YRet c r)))
    end.
  Fixpoint zrun_all (fuel : nat) (w : yworld) (l : list ycall) : zres yworld :=
    match l with
    | [] => ZOk w
    | c :: rest => zbind (zrun fuel w c) (fun w' => zrun_all fuel w' rest)
    end.
End VThrow.
