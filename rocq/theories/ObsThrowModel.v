(** Observables whose observers may throw (include/xitren/comm/observer.hpp).  notification()
    (39-43) is noexcept, and so are the destructors (83,244) and every member of the fixed-size
    variant (93,114,133,150): an exception that would leave them calls std::terminate, which
    ends the program.  The members of the dynamic variant (254,275,289,309) are not.
    Simplified: one thread; what a terminate handler does is not modelled. *)
From Verif Require Export ObserverModel.

(** An exception: the observable's own, with its error code (218-230), or another one. *)
Inductive exc := Own (e : err) | Other.
(** How a call or a callback is left. *)
Inductive tout := TRet (e : err) | TExc (x : exc).

(** What a callback does: it returns, throws, or makes a call on the observable and goes on
    in a way that may depend on how the call is left (it may catch what it is thrown). *)
Inductive tbody (V : Type) :=
| TReturn
| TThrow (x : exc)
| TDo (c : call V) (k : tout -> tbody V).
Arguments TReturn {V}. Arguments TThrow {V} x. Arguments TDo {V} c k.

(** Events: data() or disconnect() of [o] entered; left by an exception; a call left. *)
Inductive tev (V : Type) :=
| TData (src o : addr) (v : V)
| TDisc (src o : addr)
| TDataThrew (o : addr)
| TDiscThrew (o : addr)
| TLeft (c : call V) (r : tout).
Arguments TData {V} src o v. Arguments TDisc {V} src o. Arguments TDataThrew {V} o. Arguments TDiscThrew {V} o.
Arguments TLeft {V} c r.

(** Outcomes: left in some way; the program ended, with the events up to then; undefined;
    out of fuel. *)
Inductive tres (V W : Type) :=
| TOk (w : W) (r : tout)
| TEnd (log : list (tev V))
| TUB
| TFuel.
Arguments TOk {V W} w r. Arguments TEnd {V W} log. Arguments TUB {V W}. Arguments TFuel {V W}.

(** If left by returning, go on. *)
Definition tthen {V A B} (x : tres V A) (f : A -> tres V B) (g : A -> exc -> tres V B) : tres V B :=
  match x with
  | TOk w (TRet _) => f w
  | TOk w (TExc e) => g w e
  | TEnd log => TEnd log
  | TUB => TUB
  | TFuel => TFuel
  end.
Definition tlift {V A B} (x : res A) (f : A -> tres V B) : tres V B :=
  match x with Ok a => f a | UB => TUB | Fuel => TFuel end.

Section Throw.
  Variable V : Type.
  Variable self : addr.
  Variable Max : Z.
  Variable on_data : list (tev V) -> addr -> V -> tbody V.
  Variable on_disc : list (tev V) -> addr -> tbody V.

  (** A callback body, given how to run one call. *)
  Fixpoint tbody_run {W} (step : W -> call V -> tres V W) (b : tbody V) (w : W) : tres V W :=
    match b with
    | TReturn => TOk w (TRet ok)
    | TThrow x => TOk w (TExc x)
    | TDo c k =>
      match step w c with
      | TOk w' r => tbody_run step (k r) w'
      | y => y
      end
    end.

  (** ** the fixed-size variant (66-195) *)
  Record tworld := TW { t_slots : list ptr; t_cnt : nat; t_inside : bool; t_log : list (tev V) }.
  Definition tfresh : tworld := TW (fresh_slots Max) 0 false [].
  Definition temit (w : tworld) (e : tev V) : tworld := TW (t_slots w) (t_cnt w) (t_inside w) (t_log w ++ [e]).

  (** item->notification(...) (158-160) and item->disconnect(...) (136-138) through slot [i]. *)
  Definition tcall_data (step : tworld -> call V -> tres V tworld) (v : V) (i : nat) (w : tworld) : tres V tworld :=
    tlift (slot (t_slots w) i) (fun p =>
    match p with
    | None => TUB
    | Some o =>
      tthen (tbody_run step (on_data (t_log w) o v) (temit w (TData self o v)))
        (fun w' => TOk w' (TRet ok))
        (fun w' _ => TEnd (t_log w' ++ [TDataThrew o]))          (* notification() is noexcept *)
    end).
  Definition tcall_disc (step : tworld -> call V -> tres V tworld) (i : nat) (w : tworld) : tres V tworld :=
    tlift (slot (t_slots w) i) (fun p =>
    match p with
    | None => TUB
    | Some o =>
      tthen (tbody_run step (on_disc (t_log w) o) (temit w (TDisc self o)))
        (fun w' => TOk w' (TRet ok))
        (fun w' _ => TEnd (t_log w' ++ [TDiscThrew o]))          (* clear_observers() is noexcept *)
    end).
  Fixpoint tloop (f : nat -> tworld -> tres V tworld) (i k : nat) (w : tworld) : tres V tworld :=
    match k with
    | O => TOk w (TRet ok)
    | S k' => tthen (f i w) (tloop f (S i) k') (fun w' x => TOk w' (TExc x))
    end.

  (** One call (93-163); the destructor (83) is [Clear]. *)
  Fixpoint trun (fuel : nat) (w : tworld) (c : call V) : tres V tworld :=
    match fuel with
    | O => TFuel
    | S f =>
      match c with
      | Add o =>
        tlift (add_observer Max (t_slots w) (t_cnt w) o) (fun y =>
          let '(a, n, e) := y in TOk (temit (TW a n (t_inside w) (t_log w)) (TLeft c (TRet e))) (TRet e))
      | Remove o =>
        tlift (remove_observer Max (t_slots w) (t_cnt w) o) (fun y =>
          let '(a, n, e) := y in TOk (temit (TW a n (t_inside w) (t_log w)) (TLeft c (TRet e))) (TRet e))
      | Clear =>
        tthen (tloop (tcall_disc (trun f)) 0 (t_cnt w) w)
          (fun w1 => TOk (temit (TW (t_slots w1) 0 (t_inside w1) (t_log w1)) (TLeft c (TRet ok))) (TRet ok))
          (fun w1 x => TOk (temit w1 (TLeft c (TExc x))) (TExc x))
      | Notify v =>
        if (max_observers Max <? t_cnt w)%nat then TOk (temit w (TLeft c (TRet internal_data_broken))) (TRet internal_data_broken)
        else if t_inside w then TOk (temit w (TLeft c (TRet notify_recursion_detected))) (TRet notify_recursion_detected)
        else
          tthen (tloop (tcall_data (trun f) v) 0 (t_cnt w) (TW (t_slots w) (t_cnt w) true (t_log w)))
            (fun w1 => TOk (temit (TW (t_slots w1) (t_cnt w1) false (t_log w1)) (TLeft c (TRet ok))) (TRet ok))
            (fun w1 x => TOk (temit w1 (TLeft c (TExc x))) (TExc x))
      end
    end.
  (** Calls one after the other; the client catches everything. *)
  Fixpoint trun_all (fuel : nat) (w : tworld) (l : list (call V)) : tres V tworld :=
    match l with
    | [] => TOk w (TRet ok)
    | c :: rest =>
      match trun fuel w c with
      | TOk w' _ => trun_all fuel w' rest
      | y => y
      end
    end.

  (** ** the dynamic variant (200-342) *)
  Variable locking : bool.
  Record uworld := UW { u_obs : list addr; u_ver : nat; u_locked : bool; u_log : list (tev V) }.
  Definition ufresh : uworld := UW [] 0 false [].
  Definition uemit (w : uworld) (e : tev V) : uworld := UW (u_obs w) (u_ver w) (u_locked w) (u_log w ++ [e]).

  (** One round of the loops in 295-297 and 315-317.  A disconnect() that throws leaves the
      loop; data() that throws ends the program. *)
  Definition uround_disc (step : uworld -> call V -> tres V uworld) (o : addr) (w : uworld) : tres V uworld :=
    tthen (tbody_run step (on_disc (u_log w) o) (uemit w (TDisc self o)))
      (fun w' => if (u_ver w' =? u_ver w)%nat then TOk w' (TRet ok) else TUB)
      (fun w' x => TOk (uemit w' (TDiscThrew o)) (TExc x)).
  Definition uround_data (step : uworld -> call V -> tres V uworld) (v : V) (o : addr) (w : uworld) : tres V uworld :=
    tthen (tbody_run step (on_data (u_log w) o v) (uemit w (TData self o v)))
      (fun w' => if (u_ver w' =? u_ver w)%nat then TOk w' (TRet ok) else TUB)
      (fun w' _ => TEnd (u_log w' ++ [TDataThrew o])).
  Fixpoint uloop (f : addr -> uworld -> tres V uworld) (l : list addr) (w : uworld) : tres V uworld :=
    match l with
    | [] => TOk w (TRet ok)
    | o :: rest => tthen (f o w) (uloop f rest) (fun w' x => TOk w' (TExc x))
    end.
  (** std::unique_lock (257-259,278-280,292-294,312-314): released however the call is left;
      taking it twice in one thread is undefined. *)
  Definition uacquire (w : uworld) : res uworld :=
    if locking then if u_locked w then UB else Ok (UW (u_obs w) (u_ver w) true (u_log w)) else Ok w.
  Definition urelease (w : uworld) : uworld :=
    if locking then UW (u_obs w) (u_ver w) false (u_log w) else w.
  (** The body of a call, with the lock. *)
  Definition uinner (step : uworld -> call V -> tres V uworld) (w : uworld) (c : call V) : tres V uworld :=
    match c with
    | Add o =>
      if negb (dcontains (u_obs w) o) then TOk (UW (u_obs w ++ [o]) (S (u_ver w)) (u_locked w) (u_log w)) (TRet ok)
      else TOk w (TExc (Own already_contains))
    | Remove o =>
      let l' := filter (fun x => negb (Pos.eqb x o)) (u_obs w) in
      if (length (u_obs w) - length l' =? 0)%nat then TOk w (TExc (Own not_found))
      else TOk (UW l' (S (u_ver w)) (u_locked w) (u_log w)) (TRet ok)
    | Clear =>
      tthen (uloop (uround_disc step) (u_obs w) w)
        (fun w1 => TOk (UW [] (S (u_ver w1)) (u_locked w1) (u_log w1)) (TRet ok))
        (fun w1 x => TOk w1 (TExc x))
    | Notify v => uloop (uround_data step v) (u_obs w) w
    end.
  Fixpoint urun (fuel : nat) (w : uworld) (c : call V) : tres V uworld :=
    match fuel with
    | O => TFuel
    | S f =>
      tlift (uacquire w) (fun w0 =>
      match uinner (urun f) w0 c with
      | TOk w1 r => TOk (uemit (urelease w1) (TLeft c r)) r
      | y => y
      end)
    end.
  Fixpoint urun_all (fuel : nat) (w : uworld) (l : list (call V)) : tres V uworld :=
    match l with
    | [] => TOk w (TRet ok)
    | c :: rest =>
      match urun fuel w c with
      | TOk w' _ => urun_all fuel w' rest
      | y => y
      end
    end.
  (** ~observable() noexcept (244). *)
  Definition udestroy (fuel : nat) (w : uworld) : tres V uworld :=
    match urun fuel w Clear with
    | TOk w' (TExc _) => TEnd (u_log w')
    | y => y
    end.
End Throw.
Arguments TW {V}. Arguments t_slots {V}. Arguments t_cnt {V}. Arguments t_inside {V}. Arguments t_log {V}.
Arguments tfresh {V}. Arguments temit {V}. Arguments tbody_run {V W}. Arguments tcall_data {V}. Arguments tcall_disc {V}.
Arguments tloop {V}. Arguments trun {V}. Arguments trun_all {V}.
Arguments UW {V}. Arguments u_obs {V}. Arguments u_ver {V}. Arguments u_locked {V}. Arguments u_log {V}. Arguments ufresh {V}.
Arguments uemit {V}. Arguments uround_disc {V}. Arguments uround_data {V}. Arguments uloop {V}. Arguments uacquire {V}. Arguments urelease {V}.
Arguments uinner {V}. Arguments urun {V}. Arguments urun_all {V}. Arguments udestroy {V}.
