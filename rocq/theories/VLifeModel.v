(** Value observables and observeds that are constructed and destroyed
    (include/xitren/comm/values/observable.hpp:22-267 and 269-500, values/observed.hpp), by
    the program or by callbacks.  The array, std::remove and the operators are those of
    ObsArray and ValuesModel.
    A range-for over the observers keeps iterators: after each callback the observable must
    still exist, and a vector must not have grown or been cleared.  Simplified: an observable
    constructed anew at the address of one whose loop is running counts as another one; an
    observed that ends inside its own callback uses nothing of itself afterwards; binding a
    reference to an object that does not exist is undefined. *)
From Verif Require Export ValuesModel.

Inductive ycall :=
| YMake (s : addr)                 (* observable() (158,404) *)
| YEnd (s : addr)                  (* ~observable() (163,409) *)
| YObs (o : addr)                  (* observed() or observed(function) (observed.hpp:27-28) *)
| YObsEnd (o : addr)               (* ~observed() (observed.hpp:50) *)
| YAdd (s o : addr) | YRemove (s o : addr) | YClear (s : addr) | YNotify (s : addr) (n : Z)
| YOp (s : addr) (op : vop)
| YValue (s : addr)                (* s.value() (30-34,276-280) *)
| YHeld (o : addr).                (* o.value() (observed.hpp:41-45) *)

Inductive yev :=
| YBegin (c : ycall)
| YApplied (s : addr) (op : vop)          (* the atomic of s was updated *)
| YStore (s o : addr) (n : Z)             (* o got n from s; its callback starts (observed.hpp:74-81) *)
| YDisc (s o : addr)                      (* o's disconnect starts (observed.hpp:69-71) *)
| YRet (c : ycall) (r : vres).

(** What a callback does: calls, depending on all that happened, then return. *)
Inductive ybody := YReturn | YDo (c : ycall) (k : list yev -> ybody).

(** An observable (23,245-249; 270,485), with the length of the log when its iterators were
    last invalidated; the objects in existence. *)
Record ycell := YCell { y_val : Z; y_arr : list ptr; y_cnt : nat; y_ver : nat }.
Record yworld := YW { y_cell : addr -> option ycell; y_obs : addr -> option Z; y_log : list yev }.
Definition yfresh : yworld := YW (fun _ => None) (fun _ => None) [].
Definition yput {A} (f : addr -> A) (a : addr) (x : A) : addr -> A := fun b => if Pos.eqb b a then x else f b.
Definition yemit (w : yworld) (e : yev) : yworld := YW (y_cell w) (y_obs w) (y_log w ++ [e]).
Definition put_cell (w : yworld) (s : addr) (x : option ycell) : yworld := YW (yput (y_cell w) s x) (y_obs w) (y_log w).
Definition put_obs (w : yworld) (o : addr) (x : option Z) : yworld := YW (y_cell w) (yput (y_obs w) o x) (y_log w).

(** Undefined behaviour keeps the events that led to it. *)
Inductive yres (A : Type) := YOk (a : A) | YUB (log : list yev) | YFuel.
Arguments YOk {A} a. Arguments YUB {A} log. Arguments YFuel {A}.
Definition ybind {A B} (x : yres A) (f : A -> yres B) : yres B :=
  match x with YOk a => f a | YUB l => YUB l | YFuel => YFuel end.
Definition ylift {A} (w : yworld) (x : res A) : yres A :=
  match x with Ok a => YOk a | UB => YUB (y_log w) | Fuel => YFuel end.
Definition yneed {A} (w : yworld) (x : option A) : yres A :=
  match x with Some a => YOk a | None => YUB (y_log w) end.
Definition yvacant {A} (w : yworld) (x : option A) : yres unit :=
  match x with Some _ => YUB (y_log w) | None => YOk tt end.

Section VLife.
  (** The template arguments of the observables that may live at each address; Max = 0 is
      the specialisation with a std::vector. *)
  Variable ty : addr -> ity.
  Variable Max : addr -> Z.
  (** The function given to an observed (observed.hpp:28,35-39), the override of disconnect. *)
  Variable on_update : list yev -> addr -> Z -> ybody.
  Variable on_disc : list yev -> addr -> ybody.
  Definition vector (s : addr) : bool := Max s =? 0.

  Fixpoint ybody_run (step : yworld -> ycall -> yres yworld) (b : ybody) (w : yworld) : yres yworld :=
    match b with
    | YReturn => YOk w
    | YDo c k => ybind (step w c) (fun w' => ybody_run step (k (y_log w')) w')
    end.

  (** The iterators taken when the observable was at [ver] are still good. *)
  Definition ysame (w : yworld) (s : addr) (ver : nat) : yres yworld :=
    ybind (yneed w (y_cell w s)) (fun x => if (y_ver x =? ver)%nat then YOk w else YUB (y_log w)).

  (** The loops (216-218, 235-237; 458-460, 475-477): the element is read, the member of the
      observed called. *)
  Fixpoint yloop (enter : yworld -> addr -> yworld) (cb : list yev -> addr -> ybody)
           (step : yworld -> ycall -> yres yworld) (s : addr) (ver i k : nat) (w : yworld) : yres yworld :=
    match k with
    | O => YOk w
    | S k' =>
      ybind (yneed w (y_cell w s)) (fun x =>
      ybind (ylift w (slot (y_arr x) i)) (fun p =>
      ybind (yneed w p) (fun o =>
      ybind (yneed w (y_obs w o)) (fun _ =>
      ybind (ybody_run step (cb (y_log w) o) (enter w o)) (fun w1 =>
      ybind (ysame w1 s ver) (yloop enter cb step s ver (S i) k'))))))
    end.

  (** notify_observers (230-239, 472-479); data() stores and then calls (observed.hpp:74-81). *)
  Definition ynotify (step : yworld -> ycall -> yres yworld) (s : addr) (n : Z) (w : yworld) : yres (yworld * vres) :=
    ybind (yneed w (y_cell w s)) (fun x =>
    if negb (vector s) && (max_observers (Max s) <? y_cnt x)%nat then YOk (w, RErr internal_data_broken)
    else ybind (yloop (fun w o => yemit (put_obs w o (Some n)) (YStore s o n)) (fun log o => on_update log o n)
                      step s (y_ver x) 0 (y_cnt x) w) (fun w1 => YOk (w1, RErr ok))).

  (** clear_observers up to the emptying (216-218, 458-460). *)
  Definition ydisconnect (step : yworld -> ycall -> yres yworld) (s : addr) (w : yworld) : yres yworld :=
    ybind (yneed w (y_cell w s)) (fun x =>
    yloop (fun w o => yemit w (YDisc s o)) on_disc step s (y_ver x) 0 (y_cnt x) w).

  Definition ydo (self : yworld -> ycall -> yres yworld) (w : yworld) (c : ycall) : yres (yworld * vres) :=
    match c with
    | YMake s =>
      ybind (yvacant w (y_cell w s)) (fun _ =>
      YOk (put_cell w s (Some (YCell 0 (if vector s then [] else fresh_slots (Max s)) 0 (length (y_log w)))), RUnit))
    | YEnd s =>
      ybind (ydisconnect self s w) (fun w1 =>
      ybind (yneed w1 (y_cell w1 s)) (fun _ => YOk (put_cell w1 s None, RUnit)))
    | YObs o => ybind (yvacant w (y_obs w o)) (fun _ => YOk (put_obs w o (Some 0), RUnit))
    | YObsEnd o => ybind (yneed w (y_obs w o)) (fun _ => YOk (put_obs w o None, RUnit))
    | YAdd s o =>
      ybind (yneed w (y_cell w s)) (fun x =>
      ybind (yneed w (y_obs w o)) (fun _ =>
      if vector s then                                     (* 419-428, 494-499 *)
        if existsb (fun p => points_to p o) (y_arr x) then YOk (w, RErr already_contains)
        else YOk (put_cell w s (Some (YCell (y_val x) (y_arr x ++ [Some o]) (S (y_cnt x)) (length (y_log w)))), RErr ok)
      else                                                 (* 173-184 *)
        ybind (ylift w (add_observer (Max s) (y_arr x) (y_cnt x) o)) (fun '(a, n, e) =>
        YOk (put_cell w s (Some (YCell (y_val x) a n (y_ver x))), RErr e))))
    | YRemove s o =>
      ybind (yneed w (y_cell w s)) (fun x =>
      ybind (yneed w (y_obs w o)) (fun _ =>
      if vector s then                                     (* 438-450: nothing is erased *)
        if (y_cnt x =? 0)%nat then YOk (w, RErr not_found)
        else ybind (ylift w (std_remove (y_arr x) (y_cnt x) o)) (fun '(a, it) =>
             YOk (put_cell w s (Some (YCell (y_val x) a (y_cnt x) (y_ver x))),
                  RErr (if negb (it =? y_cnt x)%nat then ok else not_found)))
      else                                                 (* 194-208 *)
        ybind (ylift w (remove_observer (Max s) (y_arr x) (y_cnt x) o)) (fun '(a, n, e) =>
        YOk (put_cell w s (Some (YCell (y_val x) a n (y_ver x))), RErr e))))
    | YClear s =>
      ybind (ydisconnect self s w) (fun w1 =>
      ybind (yneed w1 (y_cell w1 s)) (fun x =>
      YOk (put_cell w1 s (Some (if vector s then YCell (y_val x) [] 0 (length (y_log w1))       (* 461 *)
                                else YCell (y_val x) (y_arr x) 0 (y_ver x))), RUnit)))          (* 219 *)
    | YNotify s n => ynotify self s (conv (ty s) n) w
    | YOp s op =>                                          (* 36-146, 282-392 *)
      ybind (yneed w (y_cell w s)) (fun x =>
      let w0 := yemit (put_cell w s (Some (YCell (apply_atomic (ty s) (y_val x) op) (y_arr x) (y_cnt x) (y_ver x))))
                      (YApplied s op) in
      ybind (ylift w0 (published (ty s) (y_val x) op)) (fun p =>
      ybind (ynotify self s p w0) (fun '(w1, _) => YOk (w1, RVal p))))
    | YValue s => ybind (yneed w (y_cell w s)) (fun x => YOk (w, RVal (y_val x)))
    | YHeld o => ybind (yneed w (y_obs w o)) (fun v => YOk (w, RVal v))
    end.

  (** One call; [fuel] bounds the nesting of calls from callbacks. *)
  Fixpoint yrun (fuel : nat) (w : yworld) (c : ycall) : yres yworld :=
    match fuel with
    | O => YFuel
    | S f => ybind (ydo (yrun f) (yemit w (YBegin c)) c) (fun '(w1, r) => YOk (yemit w1 (YRet c r)))
    end.
  Fixpoint yrun_all (fuel : nat) (w : yworld) (l : list ycall) : yres yworld :=
    match l with
    | [] => YOk w
    | c :: rest => ybind (yrun fuel w c) (fun w' => yrun_all fuel w' rest)
    end.
End VLife.
