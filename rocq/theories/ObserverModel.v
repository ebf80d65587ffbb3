(** Model of include/xitren/comm/observer.hpp (static and dynamic observable)
    and include/xitren/comm/observer_static.hpp. *)
From Verif Require Export ObsArray.

(** Calls a client can make on an observable. *)
Inductive call (V : Type) :=
| Add (o : addr)
| Remove (o : addr)
| Clear
| Notify (v : V).
Arguments Add {V} o. Arguments Remove {V} o. Arguments Clear {V}. Arguments Notify {V} v.

(** What a callback body does with the observable: it returns, or makes a call
    and continues in a way that may depend on the result.  Every such tree is
    finite along each path: a callback body itself terminates. *)
Inductive body (V : Type) :=
| Return
| Do (c : call V) (k : err -> body V).
Arguments Return {V}. Arguments Do {V} c k.

(** What can be seen from outside: observer [o]'s data() entered with source
    pointer and value (observer.hpp:39-43,61-63), observer [o]'s disconnect()
    entered (observer.hpp:50-52), a call on the observable returned. *)
Inductive ev (V : Type) :=
| Data (src o : addr) (v : V)
| Disc (src o : addr)
| Ret (c : call V) (e : err).
Arguments Data {V} src o v. Arguments Disc {V} src o. Arguments Ret {V} c e.

Section Observable.
  Variable V : Type.
  Variable self : addr.                                 (* address of the observable *)
  Variable Max : Z.
  Variable on_data : list (ev V) -> addr -> V -> body V. (* data() of each observer *)
  Variable on_disc : list (ev V) -> addr -> body V.      (* disconnect() of each observer *)

  (** observers_, count_, inside (observer.hpp:169-177) and the events so far. *)
  Record world := W { w_slots : list ptr; w_cnt : nat; w_inside : bool; w_log : list (ev V) }.

  Definition emit (w : world) (e : ev V) : world :=
    W (w_slots w) (w_cnt w) (w_inside w) (w_log w ++ [e]).

  (** observable() noexcept = default (observer.hpp:78,169-177). *)
  Definition fresh : world := W (fresh_slots Max) 0 false [].

  (** Running a callback body, given how to run one call. *)
  Fixpoint run_body (step : world -> call V -> res (world * err)) (b : body V) (w : world)
    : res world :=
    match b with
    | Return => Ok w
    | Do c k => ' (w', e) <- step w c ;; run_body step (k e) w'
    end.

  (** item->notification(this, n) / item->disconnect(this) through slot [i]: the
      slot is read when the loop gets there; calling through null is undefined. *)
  Definition call_data (step : world -> call V -> res (world * err)) (i : nat) (v : V) (w : world)
    : res world :=
    p <- slot (w_slots w) i ;;
    match p with
    | None => UB
    | Some o => run_body step (on_data (w_log w) o v) (emit w (Data self o v))
    end.

  Definition call_disc (step : world -> call V -> res (world * err)) (i : nat) (w : world)
    : res world :=
    p <- slot (w_slots w) i ;;
    match p with
    | None => UB
    | Some o => run_body step (on_disc (w_log w) o) (emit w (Disc self o))
    end.

  (** for (auto& item : std::views::counted(observers_.begin(), count_)): the
      number of rounds is fixed when the loop starts. *)
  Fixpoint loop (f : nat -> world -> res world) (i k : nat) (w : world) : res world :=
    match k with
    | O => Ok w
    | S k' => w' <- f i w ;; loop f (S i) k' w'
    end.

  (** One call on the static observable.  [fuel] bounds the depth of nested
      calls (a disconnect() that calls clear_observers() recurses for ever). *)
  Fixpoint run (fuel : nat) (w : world) (c : call V) : res (world * err) :=
    match fuel with
    | O => Fuel
    | S f =>
      match c with
      | Add o =>                                    (* observer.hpp:93-104 *)
        ' (a, n, e) <- add_observer Max (w_slots w) (w_cnt w) o ;;
        Ok (emit (W a n (w_inside w) (w_log w)) (Ret c e), e)
      | Remove o =>                                 (* observer.hpp:114-128 *)
        ' (a, n, e) <- remove_observer Max (w_slots w) (w_cnt w) o ;;
        Ok (emit (W a n (w_inside w) (w_log w)) (Ret c e), e)
      | Clear =>                                    (* observer.hpp:133-140; the
                                                       destructor, line 83, is this call *)
        w1 <- loop (call_disc (run f)) 0 (w_cnt w) w ;;
        Ok (emit (W (w_slots w1) 0 (w_inside w1) (w_log w1)) (Ret c ok), ok)
      | Notify v =>                                 (* observer.hpp:150-163 *)
        if (max_observers Max <? w_cnt w)%nat then
          Ok (emit w (Ret c internal_data_broken), internal_data_broken)
        else if w_inside w then
          Ok (emit w (Ret c notify_recursion_detected), notify_recursion_detected)
        else
          w1 <- loop (fun i => call_data (run f) i v) 0 (w_cnt w)
                  (W (w_slots w) (w_cnt w) true (w_log w)) ;;
          Ok (emit (W (w_slots w1) (w_cnt w1) false (w_log w1)) (Ret c ok), ok)
      end
    end.

  (** A client making calls one after the other. *)
  Fixpoint run_all (fuel : nat) (w : world) (l : list (call V)) : res world :=
    match l with
    | [] => Ok w
    | c :: t => ' (w', _) <- run fuel w c ;; run_all fuel w' t
    end.
End Observable.
Arguments W {V}. Arguments w_slots {V}. Arguments w_cnt {V}. Arguments w_inside {V}.
Arguments w_log {V}. Arguments emit {V}. Arguments fresh {V}. Arguments run_body {V}.
Arguments call_data {V}. Arguments call_disc {V}. Arguments loop {V}. Arguments run {V}.
Arguments run_all {V}.

(** ** comm::observable<T,false,Size>, observer.hpp:200-342 *)
Section Dynamic.
  Variable V : Type.
  Variable self : addr.
  (** Whether PTHREAD_MUTEX_DEFAULT is a macro, i.e. whether the members take
      access_ (observer.hpp:257-259,278-280,292-294,312-314). *)
  Variable locking : bool.
  Variable on_data : list (ev V) -> addr -> V -> body V.
  Variable on_disc : list (ev V) -> addr -> body V.

  (** observers_ (a std::vector), how often its elements or iterators have been
      invalidated, whether access_ is held (by the only thread), the events. *)
  Record dworld := DW { d_obs : list addr; d_ver : nat; d_locked : bool; d_log : list (ev V) }.
  Definition dfresh : dworld := DW [] 0 false [].
  Definition demit (w : dworld) (e : ev V) : dworld :=
    DW (d_obs w) (d_ver w) (d_locked w) (d_log w ++ [e]).

  Fixpoint drun_body (step : dworld -> call V -> res (dworld * err)) (b : body V) (w : dworld)
    : res dworld :=
    match b with
    | Return => Ok w
    | Do c k => ' (w', e) <- step w c ;; drun_body step (k e) w'
    end.

  (** One round of a range-for over observers_: the element is called, and the
      iterators must still be valid when the loop advances. *)
  Definition dround (cb : list (ev V) -> addr -> body V) (mk : addr -> ev V)
             (step : dworld -> call V -> res (dworld * err)) (p : addr) (w : dworld) : res dworld :=
    w' <- drun_body step (cb (d_log w) p) (demit w (mk p)) ;;
    if (d_ver w' =? d_ver w)%nat then Ok w' else UB.

  Fixpoint dloop (f : addr -> dworld -> res dworld) (l : list addr) (w : dworld) : res dworld :=
    match l with
    | [] => Ok w
    | p :: t => w' <- f p w ;; dloop f t w'
    end.

  (** std::unique_lock lock(access_): locking a std::mutex the thread already
      owns is undefined (in practice it never returns). *)
  Definition acquire (w : dworld) : res dworld :=
    if locking then
      if d_locked w then UB else Ok (DW (d_obs w) (d_ver w) true (d_log w))
    else Ok w.
  Definition release (w : dworld) : dworld :=
    if locking then DW (d_obs w) (d_ver w) false (d_log w) else w.

  (** contains(), observer.hpp:333-341. *)
  Fixpoint dcontains (l : list addr) (o : addr) : bool :=
    match l with
    | [] => false
    | x :: t => if Pos.eqb x o then true else dcontains t o
    end.

  (** One call.  A thrown exception{e} is modelled as returning [e] (the caller,
      or the callback, catches it); [ok] is a normal return. *)
  Fixpoint drun (fuel : nat) (w : dworld) (c : call V) : res (dworld * err) :=
    match fuel with
    | O => Fuel
    | S f =>
      w <- acquire w ;;
      ' (w, e) <-
        match c with
        | Add o =>                                  (* observer.hpp:254-265 *)
          if negb (dcontains (d_obs w) o) then
            Ok (DW (d_obs w ++ [o]) (S (d_ver w)) (d_locked w) (d_log w), ok)
          else Ok (w, already_contains)
        | Remove o =>                               (* observer.hpp:275-284; std::erase
                                                       returns the number erased *)
          let l' := filter (fun x => negb (Pos.eqb x o)) (d_obs w) in
          if (length (d_obs w) - length l' =? 0)%nat then Ok (w, not_found)
          else Ok (DW l' (S (d_ver w)) (d_locked w) (d_log w), ok)
        | Clear =>                                  (* observer.hpp:289-299, 244 *)
          w1 <- dloop (dround on_disc (Disc self) (drun f)) (d_obs w) w ;;
          Ok (DW [] (S (d_ver w1)) (d_locked w1) (d_log w1), ok)
        | Notify v =>                               (* observer.hpp:309-318 *)
          w1 <- dloop (dround (fun log p => on_data log p v) (fun p => Data self p v) (drun f))
                  (d_obs w) w ;;
          Ok (w1, ok)
        end ;;
      Ok (demit (release w) (Ret c e), e)
    end.

  Fixpoint drun_all (fuel : nat) (w : dworld) (l : list (call V)) : res dworld :=
    match l with
    | [] => Ok w
    | c :: t => ' (w', _) <- drun fuel w c ;; drun_all fuel w' t
    end.
End Dynamic.
Arguments DW {V}. Arguments d_obs {V}. Arguments d_ver {V}. Arguments d_locked {V}.
Arguments d_log {V}. Arguments dfresh {V}. Arguments demit {V}. Arguments drun_body {V}.
Arguments dround {V}. Arguments dloop {V}. Arguments acquire {V}. Arguments release {V}.
Arguments drun {V}. Arguments drun_all {V}.

(** ** observer_static.hpp: the compile-time list of observers *)
(** observable<D, Observer, Observers...> (lines 36-60) and its last link
    observable<D, Observer> (lines 62-82): a chain of sub-objects; the last one
    owns [root], the others refer to their successor's. *)
Inductive chain :=
| Last (obs : addr) (root : addr)
| Link (obs : addr) (next : chain).

(** [root] as seen in each link: line 46 initialises it with next_.root. *)
Fixpoint root (c : chain) : addr :=
  match c with Last _ r => r | Link _ n => root n end.

(** The constructor (lines 45-46 and 69): the pack is split into the first observer
    and the rest; [r] is the address of the innermost sub-object's root. *)
Fixpoint construct (r : addr) (o : addr) (os : list addr) : chain :=
  match os with
  | [] => Last o r
  | o' :: os' => Link o (construct r o' os')
  end.

(** notify (lines 54-59 and 77-81).  [deliver u src o d] is the user's
    notification_impl of observer [o] (line 29) acting on the user's own state. *)
Fixpoint chain_notify {U D : Type} (deliver : U -> addr -> addr -> D -> U) (u : U) (c : chain) (d : D) : U :=
  match c with
  | Last o r => deliver u r o d
  | Link o n => chain_notify deliver (deliver u (root n) o d) n d
  end.
