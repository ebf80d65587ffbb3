(** Property C101: many allocators, many heaps. *)
From Verif Require Import AllocatorsProofs.

(** Every permitted call is defined, whichever allocator it goes through; it is the call of
    the allocator's heap, a converted allocator having the heap of the original; it leaves
    the other heaps alone; what it hands out meets no block held in any heap. *)
Theorem C101_any_allocator cs hs os l a :
  (forall m, placed (cs m)) -> (forall m, roomy (cs m)) -> apart cs ->
  asession cs hs os l -> apermitted os l a ->
  exists hs' os' r, astep cs hs os a = Ok (hs', os', r) /\ asession cs hs' os' (ahold os l a r) /\
  match a with
  | AMake m sz => hs' = hs /\ r = AMade (length os) /\ os' = os ++ [AObj m sz]
  | AConvert k sz => exists o, nth_error os k = Some o /\ hs' = hs /\ r = AMade (length os) /\ os' = os ++ [AObj (ao_heap o) sz]
  | AAllocate k n => exists o, nth_error os k = Some o /\ os' = os /\ (forall m, m <> ao_heap o -> hs' m = hs m) /\
      allocate (cs (ao_heap o)) (hs (ao_heap o)) (n * ao_size o) =
        Ok (hs' (ao_heap o), match r with APtr p => p | _ => 0 end) /\
      match r with
      | APtr p => p <> 0 /\ p mod 8 = 0 /\ c_base (cs (ao_heap o)) <= p /\
                  p + n * ao_size o <= c_base (cs (ao_heap o)) + c_size (cs (ao_heap o)) /\
                  forall b, In b l -> disjoint p (n * ao_size o) (hl_ptr b) (hl_bytes b)
      | ABadAlloc => unchanged (hs (ao_heap o)) (hs' (ao_heap o))
      | _ => False
      end
  | ADeallocate k p n => exists o, nth_error os k = Some o /\ os' = os /\ r = ADone /\ (forall m, m <> ao_heap o -> hs' m = hs m) /\
      deallocate (cs (ao_heap o)) (hs (ao_heap o)) p = Ok (hs' (ao_heap o))
  end.
Proof. intros PL RM. exact (call_effect cs PL RM hs os l a). Qed.

(** Each heap by itself has gone through a permitted history, and holds the blocks got from
    it through any of its allocators and not given back; so C01-C15 hold of each heap. *)
Theorem C101_each_heap_by_itself cs hs os l m :
  (forall m, placed (cs m)) -> (forall m, roomy (cs m)) -> asession cs hs os l ->
  exists t, reachable (cs m) (hs m) t /\ same_blocks m l t.
Proof. intros PL RM S. destruct (session_sound cs PL RM hs os l S) as (_ & X). apply X. Qed.

(** Blocks not given back keep their bytes. *)
Theorem C101_bytes_kept cs hs os l a hs' os' r b x :
  (forall m, placed (cs m)) -> (forall m, roomy (cs m)) ->
  asession cs hs os l -> apermitted os l a -> astep cs hs os a = Ok (hs', os', r) ->
  In b l -> In b (ahold os l a r) -> hl_ptr b <= x < hl_ptr b + hl_bytes b ->
  h_mem (hs' (hl_heap b)) x = h_mem (hs (hl_heap b)) x.
Proof. intros PL RM. exact (bytes_kept cs PL RM hs os l a hs' os' r b x). Qed.

(** Giving back through another allocator of the same heap, rebound or not, equal or not,
    and with another count, is the same call. *)
Theorem C101_deallocate_interchangeable cs hs os k k' o o' p n n' :
  nth_error os k = Some o -> nth_error os k' = Some o' -> ao_heap o = ao_heap o' ->
  astep cs hs os (ADeallocate k p n) = astep cs hs os (ADeallocate k' p n').
Proof. intros E E' H. cbn [astep]. rewrite E, E', H. reflexivity. Qed.

(** Two heaps; 20 bytes got through an allocator of 4-byte objects are given back through
    one of 8-byte objects converted from it. *)
Definition C101_cs (m : nat) : cfg :=
  {| c_size := 256; c_base := 65568 + 1024 * Z.of_nat m; c_xs := 65824 + 1024 * Z.of_nat m |}.
Definition C101_heap (m : nat) : heap := match construct (C101_cs m) with Ok h => h | _ => h_ex end.
Definition C101_calls : list acall :=
  [AMake 0 4; AMake 1 4; AConvert 0 8; AAllocate 0 5; AAllocate 1 5; ADeallocate 2 65584 1; AAllocate 2 1].
Fixpoint C101_run (hs : nat -> heap) (os : list aobj) (calls : list acall) : list ares :=
  match calls with
  | [] => []
  | a :: rest => match astep C101_cs hs os a with Ok (hs', os', r) => r :: C101_run hs' os' rest | _ => [] end
  end.
Example C101_ex :
  C101_run C101_heap [] C101_calls = [AMade 0; AMade 1; AMade 2; APtr 65584; APtr 66608; ADone; APtr 65584].
Proof. vm_compute. reflexivity. Qed.
Example C101_ex_apart : apart C101_cs.
Proof. intros i j N. unfold disjoint, C101_cs. cbn [c_base c_size]. destruct (Nat.lt_total i j) as [L|[L|L]]; lia. Qed.

Print Assumptions C101_any_allocator.
Print Assumptions C101_each_heap_by_itself.
Print Assumptions C101_bytes_kept.
Print Assumptions C101_deallocate_interchangeable.
