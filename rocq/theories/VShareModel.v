(** values::observable and its observeds used by several threads, with the observeds' callbacks
    (include/xitren/comm/values/observable.hpp:30-146, 230-239, the dynamic class 276-392, 472-480;
    observed.hpp:41-81): one step per atomic
    operation and per beginning and end of a callback.  ValuesModel's threads see neither the
    callbacks nor the readers.  Simplified: the registered observeds and their functions do not
    change meanwhile (count_, observers_ and function_ are not atomic: that would be a data race);
    a callback may take any time but does not use the observable. *)
From Verif Require Export ValuesModel.

(** What a thread does: an operator, value() of the observable (30-34), value() of an observed
    (observed.hpp:41-45). *)
Inductive gcmd := GUpd (op : vop) | GValue | GSeen (o : addr).

(** What happens in a thread: the atomic update found [x] and publishes [p]; observed [o] stores
    [n] (observed.hpp:77), its function is entered with [n] and left (78-80); the operator
    returns; a value was read. *)
Inductive gev :=
| Updated (op : vop) (x p : Z)
| Stored (o : addr) (n : Z)
| Entered (o : addr) (n : Z)
| Left (o : addr) (n : Z)
| Returned (p : Z)
| Got (z : Z)
| GotSeen (o : addr) (z : Z).

(** A thread: the commands to come and the rest of the operator it is in. *)
Record gthread := GT { g_todo : list gcmd; g_next : list gev }.
Record gworld := GW { g_val : Z; g_mirror : addr -> Z; g_threads : list gthread; g_log : list (nat * gev) }.

Fixpoint gput (l : list gthread) (i : nat) (x : gthread) : list gthread :=
  match l, i with
  | [], _ => []
  | _ :: r, O => x :: r
  | y :: r, S k => y :: gput r k x
  end.

Section Share.
  Variable t : ity.
  Variable obs : list addr.     (* the registered observeds, in order *)
  Variable cb : addr -> bool.   (* whether function_ is set (observed.hpp:78) *)

  (** notification of one observed (observed.hpp:58-62, 74-81). *)
  Definition tell (p : Z) (o : addr) : list gev := Stored o p :: (if cb o then [Entered o p; Left o p] else []).
  (** notify_observers (230-239) and the return. *)
  Definition rest_of_update (p : Z) : list gev := flat_map (tell p) obs ++ [Returned p].

  (** The next step of thread [i]. *)
  Definition gstep (w : gworld) (i : nat) : res gworld :=
    match nth_error (g_threads w) i with
    | None => Ok w
    | Some (GT todo (e :: next)) =>
      let m := match e with Stored o n => set_mirror (g_mirror w) o n | _ => g_mirror w end in
      Ok (GW (g_val w) m (gput (g_threads w) i (GT todo next)) (g_log w ++ [(i, e)]))
    | Some (GT [] []) => Ok w
    | Some (GT (GUpd op :: todo) []) =>
      p <- published t (g_val w) op ;;
      Ok (GW (apply_atomic t (g_val w) op) (g_mirror w) (gput (g_threads w) i (GT todo (rest_of_update p)))
             (g_log w ++ [(i, Updated op (g_val w) p)]))
    | Some (GT (GValue :: todo) []) =>
      Ok (GW (g_val w) (g_mirror w) (gput (g_threads w) i (GT todo [])) (g_log w ++ [(i, Got (g_val w))]))
    | Some (GT (GSeen o :: todo) []) =>
      Ok (GW (g_val w) (g_mirror w) (gput (g_threads w) i (GT todo [])) (g_log w ++ [(i, GotSeen o (g_mirror w o))]))
    end.
  Fixpoint grun (w : gworld) (sched : list nat) : res gworld :=
    match sched with
    | [] => Ok w
    | i :: rest => w <- gstep w i ;; grun w rest
    end.
  Definition gstart (v : Z) (m : addr -> Z) (progs : list (list gcmd)) : gworld :=
    GW v m (map (fun p => GT p []) progs) [].
End Share.
