(** Vocabulary for std::vectors in a static heap. *)
From Verif Require Export HeapVecModel.

(** A value of T: sizeof(T) bytes. *)
Definition is_elem (sz : Z) (x : elem) : Prop := Z.of_nat (length x) = sz /\ Forall (fun b => 0 <= b < 256) x.

(** What the vector contains. *)
Definition contents (sz : Z) (h : heap) (v : vec) : list elem :=
  map (fun k => read_bytes (h_mem h) (ve_data v + Z.of_nat k * sz) (Z.to_nat sz)) (seq 0 (Z.to_nat (ve_size v))).
Definition all_contents (sz : Z) (w : vheap) : list (list elem) := map (contents sz (vh_heap w)) (vh_vecs w).

(** The same command on plain lists. *)
Fixpoint update {A} (l : list A) (i : nat) (x : A) : list A :=
  match l, i with
  | [], _ => []
  | _ :: r, O => x :: r
  | y :: r, S k => y :: update r k x
  end.
Definition on_lists (ls : list (list elem)) (k : vcmd) : list (list elem) :=
  match k with
  | VNew => ls ++ [[]]
  | VDrop i | VClear i => update ls i []
  | VPush i x => update ls i (nth i ls [] ++ [x])
  | VPop i => update ls i (removelast (nth i ls []))
  | VSet i j x => update ls i (update (nth i ls []) j x)
  | VReserve _ _ | VOther _ => ls
  | VCopy i j => update ls i (nth j ls [])
  end.

(** A correct program: vectors that exist, elements that exist, values of T; the other users
    of the heap ([lo] is what they hold) do what they may. *)
Definition vpermitted (sz : Z) (w : vheap) (lo : list held) (k : vcmd) : Prop :=
  match k with
  | VNew => True
  | VDrop i | VClear i => (i < length (vh_vecs w))%nat
  | VPush i x => (i < length (vh_vecs w))%nat /\ is_elem sz x
  | VPop i => exists v, nth_error (vh_vecs w) i = Some v /\ contents sz (vh_heap w) v <> []
  | VSet i j x => is_elem sz x /\ exists v, nth_error (vh_vecs w) i = Some v /\ (j < length (contents sz (vh_heap w) v))%nat
  | VReserve i n => (i < length (vh_vecs w))%nat /\ is_size n
  | VCopy i j => (i < length (vh_vecs w))%nat /\ (j < length (vh_vecs w))%nat
  | VOther o => permitted lo o
  end.

(** What the others hold afterwards. *)
Definition vothers (lo : list held) (k : vcmd) (r : vret) (f0 f1 : Z) : list held :=
  match k, r with VOther o, VGot p => hold lo o p f0 f1 | _, _ => lo end.

Definition threw (r : vret) : bool := match r with VBadAlloc | VLengthError => true | _ => false end.

(** Runs from a new heap with no vectors; the commands with their results. *)
Inductive vruns (c : cfg) (sz : Z) : vheap -> list held -> list (vcmd * vret) -> Prop :=
| vr_start h0 : construct c = Ok h0 -> vruns c sz (VH h0 []) [] []
| vr_step w lo evs k w' r :
    vruns c sz w lo evs -> vpermitted sz w lo k -> vstep c sz w k = Ok (w', r) ->
    vruns c sz w' (vothers lo k r (free_heap_size (vh_heap w)) (free_heap_size (vh_heap w'))) (evs ++ [(k, r)]).

(** The lists that result from the commands that did not throw. *)
Definition on_lists_all (evs : list (vcmd * vret)) : list (list elem) :=
  fold_left (fun ls e => if threw (snd e) then ls else on_lists ls (fst e)) evs [].

(** How many elements command [k] needs a new block for: a push on a full vector doubles it (1 if
    it was empty), reserve asks for what is said, an assignment for the size of the source. *)
Definition asks_for (sz : Z) (w : vheap) (k : vcmd) : option Z :=
  match k with
  | VPush i _ =>
    match nth_error (vh_vecs w) i with
    | Some v => if (ve_size v =? ve_cap v) && (ve_size v <? max_size sz) then Some (Z.min (max_size sz) (Z.max 1 (2 * ve_size v))) else None
    | None => None
    end
  | VReserve i n =>
    match nth_error (vh_vecs w) i with
    | Some v => if (ve_cap v <? n) && (n <=? max_size sz) then Some n else None
    | None => None
    end
  | VCopy i j =>
    match nth_error (vh_vecs w) i, nth_error (vh_vecs w) j with
    | Some v, Some u => if ve_cap v <? ve_size u then Some (ve_size u) else None
    | _, _ => None
    end
  | _ => None
  end.
(** Command [k] exceeds max_size(). *)
Definition too_long (sz : Z) (w : vheap) (k : vcmd) : Prop :=
  match k with
  | VPush i _ => exists v, nth_error (vh_vecs w) i = Some v /\ ve_size v = max_size sz
  | VReserve _ n => max_size sz < n
  | _ => False
  end.

(** [l] lists the blocks of the heap that are in use: those of the others and one for each vector
    with room for an element. *)
Definition vblock (sz : Z) (v : vec) (b : held) : Prop := ve_cap v <> 0 /\ hd_ptr b = ve_data v /\ hd_req b = ve_cap v * sz.
Definition in_use (c : cfg) (sz : Z) (w : vheap) (lo l : list held) : Prop :=
  reachable c (vh_heap w) l /\ (forall b, In b lo -> In b l) /\
  (forall v, In v (vh_vecs w) -> ve_cap v <> 0 -> exists b, In b l /\ vblock sz v b) /\
  (forall b, In b l -> In b lo \/ exists v, In v (vh_vecs w) /\ vblock sz v b).

(** The vector a command works on. *)
Definition target (k : vcmd) : option nat :=
  match k with
  | VDrop i | VPush i _ | VPop i | VSet i _ _ | VReserve i _ | VClear i | VCopy i _ => Some i
  | VNew | VOther _ => None
  end.
Definition is_other (k : vcmd) : bool := match k with VOther _ => true | _ => false end.

(** A list of commands, one after the other, with the results. *)
Fixpoint vexec (c : cfg) (sz : Z) (w : vheap) (ks : list vcmd) : res (vheap * list vret) :=
  match ks with
  | [] => Ok (w, [])
  | k :: t => '(w, r) <- vstep c sz w k ;; '(w, rs) <- vexec c sz w t ;; Ok (w, r :: rs)
  end.
