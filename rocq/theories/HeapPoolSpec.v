(** Vocabulary for clients that always ask for the same amount. *)
From Verif Require Export HeapSpec.

(** The call asks for a number of bytes that rounds to the same footprint as [n] bytes. *)
Definition asks (n : Z) (o : op) : Prop :=
  match o with
  | Alloc m => needed m = needed n
  | Calloc num size => needed (num * size) = needed n
  | _ => True
  end.

(** [h] with client table [l] is reachable by a history in which every request is such a one. *)
Definition one_size (c : cfg) (n : Z) (h : heap) (l : list held) : Prop :=
  exists h0 evs, construct c = Ok h0 /\ session c h0 [] evs h l /\ Forall (fun e => asks n (fst (fst e))) evs.

(** How many blocks of that size the usable area could hold side by side, and the pointer that
    belongs to each of these places. *)
Definition places (c : cfg) (n : Z) : Z := (area_end c - area_start c) / needed n.
Definition place (c : cfg) (n k : Z) : Z := area_start c + needed n * k + 16.
