(** Vocabulary for value observables shared by threads. *)
From Verif Require Export VShareModel ValuesSpec.

(** Every thread has done everything. *)
Definition all_done (w : gworld) : Prop := Forall (fun th => g_todo th = [] /\ g_next th = []) (g_threads w).

(** What happened in thread [i]. *)
Definition of_thread (i : nat) (log : list (nat * gev)) : list gev :=
  flat_map (fun e => if (fst e =? i)%nat then [snd e] else []) log.

(** What an operator, all of it, looks like: the update; every registered observed in order: the
    store, then its function called with the same value, if it has one; the return. *)
Definition whole_update (obs : list addr) (cb : addr -> bool) (op : vop) (x p : Z) : list gev :=
  [Updated op x p] ++ flat_map (fun o => if cb o then [Stored o p; Entered o p; Left o p] else [Stored o p]) obs ++ [Returned p].
Definition whole (t : ity) (obs : list addr) (cb : addr -> bool) (c : gcmd) (es : list gev) : Prop :=
  match c with
  | GUpd op => exists x p, published t x op = Ok p /\ es = whole_update obs cb op x p
  | GValue => exists z, es = [Got z]
  | GSeen o => exists z, es = [GotSeen o z]
  end.

(** The values published, in the order of the updates; the values observed [o]'s function was called with. *)
Definition publications (log : list (nat * gev)) : list Z :=
  flat_map (fun e => match snd e with Updated _ _ p => [p] | _ => [] end) log.
Definition arguments (o : addr) (log : list (nat * gev)) : list Z :=
  flat_map (fun e => match snd e with Entered o' n => if Pos.eqb o' o then [n] else [] | _ => [] end) log.
(** The results of value() of the observable and of observed [o], in order. *)
Definition reads (log : list (nat * gev)) : list Z :=
  flat_map (fun e => match snd e with Got z => [z] | _ => [] end) log.
Definition reads_of (o : addr) (log : list (nat * gev)) : list Z :=
  flat_map (fun e => match snd e with GotSeen o' z => if Pos.eqb o' o then [z] else [] | _ => [] end) log.

Definition is_update (c : gcmd) : bool := match c with GUpd _ => true | _ => false end.
(** The number of updates in the programs. *)
Definition updates (progs : list (list gcmd)) : nat := length (filter is_update (concat progs)).
Definition only_ops (P : vop -> Prop) (progs : list (list gcmd)) : Prop :=
  forall prog op, In prog progs -> In (GUpd op) prog -> P op.
(** Only thread [i] updates. *)
Definition one_writer (i : nat) (progs : list (list gcmd)) : Prop :=
  forall j prog c, nth_error progs j = Some prog -> In c prog -> is_update c = true -> j = i.

(** Thread [i] is in the function of observed [o], called with [n]. *)
Definition in_function (i : nat) (o : addr) (n : Z) (log : list (nat * gev)) : Prop :=
  exists es, of_thread i log = es ++ [Entered o n].

(** The value before the last update. *)
Definition before_last (v : Z) (log : list (nat * gev)) : Z :=
  fold_left (fun x e => match snd e with Updated _ x' _ => x' | _ => x end) log v.

(** The value of the observable after [log], by arithmetic, and what observed [o] stored last. *)
Definition value_after (t : ity) (v : Z) (log : list (nat * gev)) : Z :=
  fold_left (fun x e => match snd e with Updated op _ _ => conv t (math x op) | _ => x end) log v.
Definition seen_after (m : addr -> Z) (log : list (nat * gev)) (o : addr) : Z :=
  fold_left (fun x e => match snd e with Stored o' n => if Pos.eqb o' o then n else x | _ => x end) log (m o).

Fixpoint increasing (l : list Z) : Prop :=
  match l with
  | [] => True
  | x :: r => Forall (fun y => x <= y) r /\ increasing r
  end.
