(** Several value observables values::observable<T,Max> (include/xitren/comm/values/observable.hpp:22-267)
    side by side, with observeds (values/observed.hpp) whose callbacks may use any of them.
    The types and sizes may differ from one observable to the next.  All of them exist from
    the start and to the end: construction and destruction are not modelled here (neither
    class can be copied: std::atomic cannot, and observed.hpp:29-33 deletes it). *)
From Verif Require Export ValuesModel.

(** Calls; observables are identified by their address. *)
Inductive xcall :=
| XAdd (s o : addr) | XRemove (s o : addr) | XClear (s : addr) | XNotify (s : addr) (n : Z)
| XOp (s : addr) (o : vop)
| XValue (s : addr).          (* s.value() (30-34) *)
(** A callback returns, or calls something and goes on depending on the result. *)
Inductive xbody := XReturn | XDo (c : xcall) (k : vres -> xbody).

(** Visible events: the atomic of [s] was updated; observed [o] got [n] from [s]
    (observed.hpp:74-81: stored, then the callback entered); [o] is disconnected from [s];
    a call returned. *)
Inductive xev :=
| XApplied (s : addr) (o : vop)
| XStore (s o : addr) (n : Z)
| XDisc (s o : addr)
| XRet (c : xcall) (r : vres).

(** The atomic, observers_, count_ (values/observable.hpp:23,245-249) of one observable. *)
Record vcell := VCell { x_val : Z; x_slots : list ptr; x_cnt : nat }.

Section VNet.
  (** The template arguments of the observable at each address. *)
  Variable ty : addr -> ity.
  Variable Max : addr -> Z.
  (** The function given to the constructor or on_update (observed.hpp:28,35-39) of each
      observed, and the override of disconnect (69-71); the log is all that happened. *)
  Variable on_update : list xev -> addr -> Z -> xbody.
  Variable on_disc : list xev -> addr -> xbody.

  (** The observables, the observeds' own atomics (observed.hpp:23) and the events. *)
  Record vnet := VN { x_cell : addr -> vcell; x_mirror : addr -> Z; x_log : list xev }.
  Definition xnote (w : vnet) (e : xev) : vnet := VN (x_cell w) (x_mirror w) (x_log w ++ [e]).
  Definition xplace (w : vnet) (s : addr) (x : vcell) : vnet :=
    VN (fun a => if Pos.eqb a s then x else x_cell w a) (x_mirror w) (x_log w).
  Definition xkeep (w : vnet) (o : addr) (n : Z) : vnet :=
    VN (x_cell w) (set_mirror (x_mirror w) o n) (x_log w).

  (** All observables just constructed (158); the observeds hold [m]. *)
  Definition xfresh (m : addr -> Z) : vnet := VN (fun s => VCell 0 (fresh_slots (Max s)) 0) m [].

  Fixpoint xbody_run (step : vnet -> xcall -> res (vnet * vres)) (b : xbody) (w : vnet) : res vnet :=
    match b with
    | XReturn => Ok w
    | XDo c k => ' (w', r) <- step w c ;; xbody_run step (k r) w'
    end.

  (** One round of the loops (216-218, 235-237): [enter] is what the observed does before
      its callback; a null pointer cannot be called. *)
  Definition xround (enter : vnet -> addr -> vnet) (cb : list xev -> addr -> xbody)
             (step : vnet -> xcall -> res (vnet * vres)) (s : addr) (i : nat) (w : vnet) : res vnet :=
    p <- slot (x_slots (x_cell w s)) i ;;
    match p with
    | None => UB
    | Some o => xbody_run step (cb (x_log w) o) (enter w o)
    end.
  Fixpoint xloop (f : nat -> vnet -> res vnet) (i k : nat) (w : vnet) : res vnet :=
    match k with
    | O => Ok w
    | S k' => w' <- f i w ;; xloop f (S i) k' w'
    end.

  (** notify_observers (230-239): no recursion guard; data() stores and then calls
      (observed.hpp:58-62,74-81). *)
  Definition xnotify (step : vnet -> xcall -> res (vnet * vres)) (s : addr) (n : Z) (w : vnet)
    : res (vnet * err) :=
    if (max_observers (Max s) <? x_cnt (x_cell w s))%nat then Ok (w, internal_data_broken)
    else
      w1 <- xloop (xround (fun w o => xnote (xkeep w o n) (XStore s o n))
                          (fun log o => on_update log o n) step s) 0 (x_cnt (x_cell w s)) w ;;
      Ok (w1, ok).

  (** One call; [fuel] bounds the nesting of calls from callbacks. *)
  Fixpoint xrun (fuel : nat) (w : vnet) (c : xcall) : res (vnet * vres) :=
    match fuel with
    | O => Fuel
    | S f =>
      ' (w1, r) <-
        match c with
        | XAdd s o =>                                      (* 173-184 *)
          let x := x_cell w s in
          ' (a, n, e) <- add_observer (Max s) (x_slots x) (x_cnt x) o ;;
          Ok (xplace w s (VCell (x_val x) a n), RErr e)
        | XRemove s o =>                                   (* 194-208 *)
          let x := x_cell w s in
          ' (a, n, e) <- remove_observer (Max s) (x_slots x) (x_cnt x) o ;;
          Ok (xplace w s (VCell (x_val x) a n), RErr e)
        | XClear s =>                                      (* 213-220 *)
          w1 <- xloop (xround (fun w o => xnote w (XDisc s o)) on_disc (xrun f) s)
                      0 (x_cnt (x_cell w s)) w ;;
          let x := x_cell w1 s in
          Ok (xplace w1 s (VCell (x_val x) (x_slots x) 0), RUnit)
        | XNotify s n =>                                   (* 230-239 *)
          ' (w1, e) <- xnotify (xrun f) s (conv (ty s) n) w ;; Ok (w1, RErr e)
        | XOp s o =>                                       (* 36-146 *)
          let x := x_cell w s in
          let w0 := xnote (xplace w s (VCell (apply_atomic (ty s) (x_val x) o) (x_slots x) (x_cnt x)))
                          (XApplied s o) in
          p <- published (ty s) (x_val x) o ;;
          ' (w1, _) <- xnotify (xrun f) s p w0 ;; Ok (w1, RVal p)
        | XValue s => Ok (w, RVal (x_val (x_cell w s)))    (* 30-34 *)
        end ;;
      Ok (xnote w1 (XRet c r), r)
    end.

  Fixpoint xrun_all (fuel : nat) (w : vnet) (l : list xcall) : res vnet :=
    match l with
    | [] => Ok w
    | c :: rest => ' (w', _) <- xrun fuel w c ;; xrun_all fuel w' rest
    end.
End VNet.
