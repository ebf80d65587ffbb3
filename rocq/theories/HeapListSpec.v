(** Vocabulary for std::lists in a static heap. *)
From Verif Require Export HeapListModel.

(** What a loop over the list sees: where each element is and its value.  Going forwards from
    begin(), and backwards from the last element. *)
Section Walk.
  Variable c : cfg.
  Variable sz : Z.
  Fixpoint walk (w : lheap) (off : Z) (n : nat) (p : Z) : list (Z * elem) :=
    match n with
    | O => []
    | S k => (p, read_bytes (h_mem (lh_heap w)) (p + 16) (Z.to_nat sz)) :: walk w off k (word c w (p + off))
    end.
  Definition size_of (w : lheap) (a : Z) : Z := word c w (a + 16).
  Definition forwards (w : lheap) (a : Z) : list (Z * elem) := walk w 0 (Z.to_nat (size_of w a)) (word c w a).
  Definition backwards (w : lheap) (a : Z) : list (Z * elem) := walk w 8 (Z.to_nat (size_of w a)) (word c w (a + 8)).
  (** Where the loop stands after all of them. *)
  Fixpoint after (w : lheap) (off : Z) (n : nat) (p : Z) : Z :=
    match n with O => p | S k => after w off k (word c w (p + off)) end.
End Walk.

(** The same command on plain sequences of (where, value). *)
Fixpoint insert_before (p : Z) (e : Z * elem) (s : list (Z * elem)) : list (Z * elem) :=
  match s with
  | [] => [e]
  | y :: t => if fst y =? p then e :: y :: t else y :: insert_before p e t
  end.
Definition on_seqs (ss : list (list (Z * elem))) (k : lcmd) (r : lret) : list (list (Z * elem)) :=
  match k, r with
  | LNew _, _ => ss ++ [[]]
  | (LDrop i | LClear i), _ => update ss i []
  | LInsert i p x, LIter n => update ss i (insert_before p (n, x) (nth i ss []))
  | LPushBack i x, LIter n => update ss i (nth i ss [] ++ [(n, x)])
  | LPushFront i x, LIter n => update ss i ((n, x) :: nth i ss [])
  | LErase i p, _ => update ss i (filter (fun y => negb (fst y =? p)) (nth i ss []))
  | LPopBack i, _ => update ss i (removelast (nth i ss []))
  | LPopFront i, _ => update ss i (tl (nth i ss []))
  | LSet i p x, _ => update ss i (map (fun y => if fst y =? p then (p, x) else y) (nth i ss []))
  | _, _ => ss
  end.
Definition on_seqs_all (evs : list (lcmd * lret)) : list (list (Z * elem)) :=
  fold_left (fun ss e => on_seqs ss (fst e) (snd e)) evs [].
Definition lmissing (r : lret) : bool := match r with LBadAlloc => true | _ => false end.

(** A place for a list object: aligned, outside the heap object, apart from the other lists. *)
Definition free_place (c : cfg) (w : lheap) (a : Z) : Prop :=
  0 < a /\ a + 24 <= W64 /\ a mod 8 = 0 /\ (a + 24 <= c_base c \/ c_xs c + 16 <= a) /\
  forall o, In o (lh_lists w) -> a + 24 <= o \/ o + 24 <= a.

(** A correct program: lists that exist, iterators into the list they are used with, values of T;
    the other users of the heap ([lo] is what they hold) do what they may. *)
Definition has_iter (c : cfg) (sz : Z) (w : lheap) (i : nat) (p : Z) : Prop :=
  exists a, nth_error (lh_lists w) i = Some a /\ In p (map fst (forwards c sz w a)).
Definition lpermitted (c : cfg) (sz : Z) (w : lheap) (lo : list held) (k : lcmd) : Prop :=
  match k with
  | LNew a => free_place c w a
  | LDrop i | LClear i => (i < length (lh_lists w))%nat
  | LInsert i p x => is_elem sz x /\ (has_iter c sz w i p \/ nth_error (lh_lists w) i = Some p)   (* the latter is end() *)
  | LPushBack i x | LPushFront i x => (i < length (lh_lists w))%nat /\ is_elem sz x
  | LErase i p => has_iter c sz w i p
  | LPopBack i | LPopFront i => exists p, has_iter c sz w i p
  | LSet i p x => has_iter c sz w i p /\ is_elem sz x
  | LOther o => permitted lo o
  end.
Definition lothers (lo : list held) (k : lcmd) (r : lret) (f0 f1 : Z) : list held :=
  match k, r with LOther o, LGot p => hold lo o p f0 f1 | _, _ => lo end.

(** Runs from a new heap with no lists, whatever the memory around it holds. *)
Inductive lruns (c : cfg) (sz : Z) : lheap -> list held -> list (lcmd * lret) -> Prop :=
| lr_start h0 words : construct c = Ok h0 -> lruns c sz (LH h0 words []) [] []
| lr_step w lo evs k w' r :
    lruns c sz w lo evs -> lpermitted c sz w lo k -> lstep c sz w k = Ok (w', r) ->
    lruns c sz w' (lothers lo k r (free_heap_size (lh_heap w)) (free_heap_size (lh_heap w'))) (evs ++ [(k, r)]).

(** Commands that need a node. *)
Definition needs_node (k : lcmd) : bool := match k with LInsert _ _ _ | LPushBack _ _ | LPushFront _ _ => true | _ => false end.
Definition lis_other (k : lcmd) : bool := match k with LOther _ => true | _ => false end.

(** [l] lists the blocks of the heap that are in use: those of the others and one for each element. *)
Definition lin_use (c : cfg) (sz : Z) (w : lheap) (lo l : list held) : Prop :=
  reachable c (lh_heap w) l /\ (forall b, In b lo -> In b l) /\
  (forall a p x, In a (lh_lists w) -> In (p, x) (forwards c sz w a) -> exists b, In b l /\ hd_ptr b = p /\ hd_req b = node_size sz) /\
  (forall b, In b l -> In b lo \/ exists a x, In a (lh_lists w) /\ In (hd_ptr b, x) (forwards c sz w a)).

Fixpoint lexec (c : cfg) (sz : Z) (w : lheap) (ks : list lcmd) : res (lheap * list lret) :=
  match ks with
  | [] => Ok (w, [])
  | k :: t => '(w, r) <- lstep c sz w k ;; '(w, rs) <- lexec c sz w t ;; Ok (w, r :: rs)
  end.

(** The commands that remove the element at [p] of list [i] or assign to it; [s] is what is in that list. *)
Definition about (i : nat) (p : Z) (s : list (Z * elem)) (k : lcmd) : Prop :=
  match k with
  | LDrop j | LClear j => j = i
  | LErase j q | LSet j q _ => j = i /\ q = p
  | LPopBack j => j = i /\ exists t x, s = t ++ [(p, x)]
  | LPopFront j => j = i /\ exists t x, s = (p, x) :: t
  | _ => False
  end.
