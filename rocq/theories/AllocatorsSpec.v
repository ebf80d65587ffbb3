(** Vocabulary for programs with several allocators. *)
From Verif Require Export AllocatorsModel.

(** Blocks held, in whichever heap; [hl_heap] says which. *)
Record alive := Alive { hl_heap : nat; hl_ptr : Z; hl_bytes : Z }.

(** What a well-behaved client does: it uses allocators it has made, sizes that fit in
    size_t, and gives back null or something it got from SOME allocator on the same heap. *)
Definition apermitted (os : list aobj) (l : list alive) (a : acall) : Prop :=
  match a with
  | AMake _ sz => 0 < sz
  | AConvert k sz => (exists o, nth_error os k = Some o) /\ 0 < sz
  | AAllocate k n => exists o, nth_error os k = Some o /\ 0 <= n /\ n * ao_size o < W64
  | ADeallocate k p n => exists o, nth_error os k = Some o /\
      (p = 0 \/ exists b, In b l /\ hl_heap b = ao_heap o /\ hl_ptr b = p)
  end.

(** What the client holds afterwards. *)
Definition ahold (os : list aobj) (l : list alive) (a : acall) (r : ares) : list alive :=
  match a, r with
  | AAllocate k n, APtr p =>
    match nth_error os k with Some o => Alive (ao_heap o) p (n * ao_size o) :: l | None => l end
  | ADeallocate k p _, _ =>
    match nth_error os k with
    | Some o => filter (fun b => negb ((hl_heap b =? ao_heap o)%nat && (hl_ptr b =? p))) l
    | None => l
    end
  | _, _ => l
  end.

Inductive asession (cs : nat -> cfg) : (nat -> heap) -> list aobj -> list alive -> Prop :=
| as_start hs : (forall m, construct (cs m) = Ok (hs m)) -> asession cs hs [] []
| as_call hs os l a hs' os' r :
    asession cs hs os l -> apermitted os l a -> astep cs hs os a = Ok (hs', os', r) ->
    asession cs hs' os' (ahold os l a r).

(** Different heaps are different objects. *)
Definition apart (cs : nat -> cfg) : Prop :=
  forall i j, i <> j -> disjoint (c_base (cs i)) (c_size (cs i)) (c_base (cs j)) (c_size (cs j)).

(** [t]: the blocks of heap [m], in the terms of a heap with a single client. *)
Definition same_blocks (m : nat) (l : list alive) (t : list held) : Prop :=
  map (fun b => (hl_ptr b, hl_bytes b)) (filter (fun b => (hl_heap b =? m)%nat) l) = map (fun b => (hd_ptr b, hd_req b)) t.
