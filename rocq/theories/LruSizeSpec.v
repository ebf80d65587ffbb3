(** Vocabulary for comparing lru caches of different Size. *)
From Verif Require Export LruSpec.

(** [a] is [b] with some entries left out, the others in the same order. *)
Inductive part_of {A} : list A -> list A -> Prop :=
| part_nil : part_of [] []
| part_skip x a b : part_of a b -> part_of a (x :: b)
| part_keep x a b : part_of a b -> part_of (x :: a) (x :: b).

(** How many puts of the history are answered by cache_missed (Exception = true). *)
Fixpoint refusals {K V} (keq : K -> K -> bool) (Size : nat) (c : lru K V) (h : puts K V) : nat :=
  match h with
  | [] => 0
  | (k, v, t) :: h' =>
    match put keq Size true c k v t with
    | Ok (c', o) => (match o with ThrewMissed => 1 | Returned => 0 end) + refusals keq Size c' h'
    | _ => 0
    end
  end.
