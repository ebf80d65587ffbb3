(** Vocabulary for the fast_pimpl lifetime property. *)
From Verif Require Export PimplModel.

(** [events i w]: constructor and destructor calls on object [i], oldest first. *)
Definition is_of (i : nat) (e : event) : bool := match e with Built j | Died j => Nat.eqb j i end.
Definition events {V} (i : nat) (w : world V) : list event := filter (is_of i) (rev (log w)).
(** Built, Died, Built, Died, ...; [true] when the last one is Built. *)
Inductive lives (i : nat) : list event -> bool -> Prop :=
| lives_none : lives i [] false
| lives_built l : lives i l false -> lives i (l ++ [Built i]) true
| lives_died l : lives i l true -> lives i (l ++ [Died i]) false.
