(** include/xitren/comm/observer.hpp, observable<T, false, Size> in a build that defines
    PTHREAD_MUTEX_DEFAULT (200-342), used by several threads.

    Observables and observers are numbered.  The list is only touched with the mutex
    held, so one step does what a call does to it.  Exceptions of add_observer and
    remove_observer are caught by whoever made the call (out of a handler they would
    end the program: notification is noexcept, 39-43). *)
From Verif Require Export Base.

(** Calls on observable [x]. *)
Inductive act :=
| AddObs (x o : nat)            (* 254-265 *)
| RemObs (x o : nat)            (* 275-284 *)
| ClearObs (x : nat)            (* 289-299 *)
| NotifyObs (x : nat) (v : Z).  (* 309-318 *)
Definition target (a : act) : nat :=
  match a with AddObs x _ | RemObs x _ | ClearObs x | NotifyObs x _ => x end.

(** What a thread is doing, innermost first: calls still to be made one after the other,
    or a call that has the mutex, its loop having handled [i] observers. *)
Inductive frame := Body (l : list act) | Holding (a : act) (i : nat).

Inductive tev :=
| Begin (t : nat) (a : act)            (* mutex acquired *)
| Deliver (t x o : nat) (v : Z)        (* observer [o] notified (316) *)
| Disc (t x o : nat)                   (* observer [o] told of the disconnection (296) *)
| End (t : nat) (a : act) (ok : bool). (* mutex released; not [ok]: an exception was thrown *)

Record tworld := TW {
  subs : nat -> list nat;              (* observers_ (321) *)
  lock : nat -> option nat;            (* access_ (323): the thread that has it *)
  stacks : list (list frame);
  hist : list tev                      (* oldest first *)
}.

Definition set_at {A} (f : nat -> A) (k : nat) (a : A) : nat -> A := fun i => if (i =? k)%nat then a else f i.
Fixpoint put {A} (l : list A) (k : nat) (a : A) : list A :=
  match l, k with
  | [], _ => []
  | _ :: r, O => a :: r
  | x :: r, S k => x :: put r k a
  end.
Definition member (o : nat) (l : list nat) : bool := existsb (Nat.eqb o) l.

Section Threads.
  (** The calls made by data() of observer [o] when [x] notifies it of [v], and by its
      disconnect(). *)
  Variable on_data : nat -> nat -> Z -> list act.
  Variable on_disc : nat -> nat -> list act.

  (** A step of thread [t]; None: it waits, or has ended.  Locking a std::mutex one already
      has is undefined. *)
  Definition tstep (w : tworld) (t : nat) : res (option tworld) :=
    match nth_error (stacks w) t with
    | Some (Body [] :: fs) => Ok (Some (TW (subs w) (lock w) (put (stacks w) t fs) (hist w)))
    | Some (Body (a :: r) :: fs) =>
      match lock w (target a) with
      | None => Ok (Some (TW (subs w) (set_at (lock w) (target a) (Some t))
                             (put (stacks w) t (Holding a 0 :: Body r :: fs)) (hist w ++ [Begin t a])))
      | Some u => if (u =? t)%nat then UB else Ok None
      end
    | Some (Holding a i :: fs) =>
      let leave l ok := Ok (Some (TW (set_at (subs w) (target a) l) (set_at (lock w) (target a) None)
                                     (put (stacks w) t fs) (hist w ++ [End t a ok]))) in
      let l := subs w (target a) in
      match a with
      | AddObs x o => if member o l then leave l false else leave (l ++ [o]) true
      | RemObs x o => if member o l then leave (filter (fun y => negb (y =? o)%nat) l) true else leave l false
      | ClearObs x =>
        match nth_error l i with
        | Some o => Ok (Some (TW (subs w) (lock w) (put (stacks w) t (Body (on_disc o x) :: Holding a (S i) :: fs))
                                 (hist w ++ [Disc t x o])))
        | None => leave [] true
        end
      | NotifyObs x v =>
        match nth_error l i with
        | Some o => Ok (Some (TW (subs w) (lock w) (put (stacks w) t (Body (on_data o x v) :: Holding a (S i) :: fs))
                                 (hist w ++ [Deliver t x o v])))
        | None => leave l true
        end
      end
    | Some [] | None => Ok None
    end.

  (** [sched]: which thread takes the next step; one that waits loses its turn. *)
  Fixpoint trun (w : tworld) (sched : list nat) : res tworld :=
    match sched with
    | [] => Ok w
    | t :: rest =>
      match tstep w t with
      | Ok (Some w') => trun w' rest
      | Ok None => trun w rest
      | UB => UB
      | Fuel => Fuel
      end
    end.

  (** Nobody registered; thread [t] is to make the calls [nth t progs]. *)
  Definition tstart (progs : list (list act)) : tworld :=
    TW (fun _ => []) (fun _ => None) (map (fun p => [Body p]) progs) [].
End Threads.
