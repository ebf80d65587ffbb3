(** Vocabulary for the alignment of what is stored in the heap. *)
From Verif Require Export HeapSpec.

(** The call asks for a multiple of [g] bytes. *)
Definition asks_by (g : Z) (o : op) : Prop :=
  match o with
  | Alloc n => n mod g = 0
  | Calloc num size => (num * size) mod g = 0
  | _ => True
  end.

(** [h] with client table [l] is reachable by a history in which every request is such a one. *)
Definition always_by (g : Z) (c : cfg) (h : heap) (l : list held) : Prop :=
  exists h0 evs, construct c = Ok h0 /\ session c h0 [] evs h l /\ Forall (fun e => asks_by g (fst (fst e))) evs.

(** [h] with client table [l] is reached by nothing but requests of [n] bytes. *)
Definition nothing_but (n : Z) (c : cfg) (h : heap) (l : list held) : Prop :=
  exists h0 evs, construct c = Ok h0 /\ session c h0 [] evs h l /\ Forall (fun e => fst (fst e) = Alloc n) evs.
