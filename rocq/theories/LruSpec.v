(** Vocabulary for the lru properties, about the history of put calls only. *)
From Verif Require Export LruModel.

Definition keq_ok {K} (keq : K -> K -> bool) : Prop := forall x y, keq x y = true <-> x = y.
Definition keys_put {K V} (h : puts K V) : list K := map (fun p => fst (fst p)) h.

(** The first put of a key: its value and time. *)
Fixpoint first_put {K V} (keq : K -> K -> bool) (h : puts K V) (k : K) : option (V * Z) :=
  match h with
  | [] => None
  | (k', v, t) :: h' => if keq k' k then Some (v, t) else first_put keq h' k
  end.

(** The keys a least-recently-used cache of [Size] entries should hold after the history,
    most recent first, if puts of evicted keys are ignored. *)
Definition without {K} (keq : K -> K -> bool) (k : K) (l : list K) : list K := filter (fun x => negb (keq x k)) l.
Fixpoint ideal {K V} (keq : K -> K -> bool) (Size : nat) (l seen : list K) (h : puts K V) : list K :=
  match h with
  | [] => l
  | (k, _, _) :: h' =>
    if existsb (fun x => keq x k) seen then
      if existsb (fun x => keq x k) l then ideal keq Size (k :: without keq k l) seen h'
      else ideal keq Size l seen h'
    else ideal keq Size (firstn Size (k :: l)) (k :: seen) h'
  end.
(** Evicted: put before, no longer in the list. *)
Definition evicted {K V} (keq : K -> K -> bool) (Size : nat) (h : puts K V) (k : K) : Prop :=
  In k (keys_put h) /\ ~ In k (ideal keq Size [] [] h).
