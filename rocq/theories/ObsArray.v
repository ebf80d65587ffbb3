(** The pointer array with a count shared (as identical source text) by
    comm::observable<T,true,Max> (observer.hpp:93-128,186-194) and
    comm::values::observable<T,Max> (values/observable.hpp:173-208,258-266). *)
From Verif Require Export BaseLemmas.

(** enum class observer_errors, observer_errors.hpp:24-54. *)
Inductive err :=
| ok | list_is_full | already_contains | not_found
| internal_data_broken | notify_recursion_detected.

(** Observers are identified by their (non-null) address; a slot of the array
    holds a pointer, [None] being null. *)
Notation addr := positive (only parsing).
Notation ptr := (option positive) (only parsing).
Definition points_to (x : ptr) (o : addr) : bool :=
  match x with Some p => Pos.eqb p o | None => false end.

(** std::array element access; an index outside the array is undefined. *)
Definition slot (a : list ptr) (i : nat) : res ptr :=
  match nth_error a i with Some x => Ok x | None => UB end.

Fixpoint set_nth (a : list ptr) (i : nat) (v : ptr) : list ptr :=
  match a, i with
  | [], _ => []
  | _ :: t, O => v :: t
  | x :: t, S j => x :: set_nth t j v
  end.

Definition put_slot (a : list ptr) (i : nat) (v : ptr) : res (list ptr) :=
  match nth_error a i with Some _ => Ok (set_nth a i v) | None => UB end.

(** observer.hpp:22,69,72: [Max] is a std::size_t, [max_observers] is a uint32_t
    initialised from it (the value is truncated), and the array has
    [max_observers] elements, all null at first (observer.hpp:169).
    values/observable.hpp:25,28,245 is the same. *)
Definition max_observers (Max : Z) : nat := Z.to_nat (Max mod 2 ^ 32).
Definition fresh_slots (Max : Z) : list ptr := repeat None (max_observers Max).

(** contains(), observer.hpp:186-194 (values/observable.hpp:258-266): the
    [k] slots from index [i]. *)
Fixpoint contains_from (a : list ptr) (i k : nat) (o : addr) : res bool :=
  match k with
  | O => Ok false
  | S k' => x <- slot a i ;;
            if points_to x o then Ok true else contains_from a (S i) k' o
  end.

(** add_observer, observer.hpp:93-104 (values/observable.hpp:173-184). *)
Definition add_observer (Max : Z) (a : list ptr) (cnt : nat) (o : addr)
  : res (list ptr * nat * err) :=
  if (max_observers Max <=? cnt)%nat then Ok (a, cnt, list_is_full)
  else
    b <- contains_from a 0 cnt o ;;
    if negb b then a' <- put_slot a cnt (Some o) ;; Ok (a', S cnt, ok)
    else Ok (a, cnt, already_contains).

(** std::remove on [begin, begin+n): std::find for the first match, then the
    later elements that differ are moved down one by one; the tail keeps what
    it held. *)
Fixpoint find_from (a : list ptr) (i k : nat) (o : addr) : res nat :=
  match k with
  | O => Ok i
  | S k' => x <- slot a i ;;
            if points_to x o then Ok i else find_from a (S i) k' o
  end.

Fixpoint compact (a : list ptr) (r i k : nat) (o : addr) : res (list ptr * nat) :=
  match k with
  | O => Ok (a, r)
  | S k' => x <- slot a i ;;
            if points_to x o then compact a r (S i) k' o
            else a' <- put_slot a r x ;; compact a' (S r) (S i) k' o
  end.

Definition std_remove (a : list ptr) (n : nat) (o : addr) : res (list ptr * nat) :=
  f <- find_from a 0 n o ;;
  if (f =? n)%nat then Ok (a, n) else compact a f (S f) (n - S f) o.

(** remove_observer, observer.hpp:114-128 (values/observable.hpp:194-208). *)
Definition remove_observer (Max : Z) (a : list ptr) (cnt : nat) (o : addr)
  : res (list ptr * nat * err) :=
  if (max_observers Max <? cnt)%nat then Ok (a, cnt, internal_data_broken)
  else if (cnt =? 0)%nat then Ok (a, cnt, not_found)
  else
    ' (a', it) <- std_remove a cnt o ;;
    if negb (cnt - it =? 0)%nat then Ok (a', it, ok) else Ok (a', cnt, not_found).
