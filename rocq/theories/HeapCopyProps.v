(** C103: a copy of a heap. *)
From Verif Require Import HeapCopyProofs.

(** Used on its own, the copy answers every well-behaved client exactly as the original
    would have: the same pointers, the same sizes and counters, the callback at the same
    calls.  (In an event the call, its result and free_heap_size() are recorded.) *)
Theorem C103_copy_answers_like_original : forall c d h l evs l1,
  placed c -> roomy c -> beside c d -> reachable c h l ->
  let b := p_copy (copy_heap c d h) in
  (forall h1, session c h l evs h1 l1 ->
     exists h2, session (copy_cfg c d) b l evs h2 l1 /\ shows_same h1 h2 /\
       h_fired h1 - h_fired h = h_fired h2) /\
  (forall h2, session (copy_cfg c d) b l evs h2 l1 ->
     exists h1, session c h l evs h1 l1 /\ shows_same h1 h2 /\
       h_fired h1 - h_fired h = h_fired h2).
Proof. intros c d h l evs l1 PL RM BE R. exact (copy_sessions c d PL RM BE h l evs l1 R). Qed.

(** So what it hands out is the original's memory, and its own buffer is never touched. *)
Theorem C103_copy_lives_in_the_original : forall c d h l evs h2 l1,
  placed c -> roomy c -> beside c d -> reachable c h l ->
  session (copy_cfg c d) (p_copy (copy_heap c d h)) l evs h2 l1 ->
  (forall x a, In x l1 -> hd_ptr x <= a < hd_ptr x + hd_req x -> in_original c a /\ ~ in_copy c d a) /\
  (forall a, in_copy c d a -> h_mem h2 a = h_mem h (a - d)).
Proof. intros c d h l evs h2 l1 PL RM BE. exact (copy_places c d PL RM BE h l evs h2 l1). Qed.

(** Used side by side: a block that one of them takes from the lowest free stretch is
    handed out again by the other, to the next request that is not larger than what was
    free at the time of copying. *)
Theorem C103_same_block_twice : forall c d h l w n k t p,
  placed c -> roomy c -> beside c d -> reachable c h l -> is_size n -> is_size k -> 0 < k ->
  needed k <= free_heap_size h -> lowest_gap c l p ->
  pair_call c d w (copy_heap c d h) (Alloc n) = Ok (t, p) -> p <> 0 ->
  exists t', pair_call c d (other w) t (Alloc k) = Ok (t', p).
Proof. intros c d h l w n k t p PL RM BE. exact (same_block_twice c d PL RM BE h l w n k t p). Qed.

(** In particular with a heap copied right after its construction. *)
Theorem C103_fresh_copies_collide : forall c d h0 w n k t p,
  placed c -> roomy c -> beside c d -> construct c = Ok h0 -> is_size n -> is_size k -> 0 < k ->
  needed k <= free_heap_size h0 ->
  pair_call c d w (copy_heap c d h0) (Alloc n) = Ok (t, p) -> p <> 0 ->
  p = area_start c + 16 /\ exists t', pair_call c d (other w) t (Alloc k) = Ok (t', p).
Proof. intros c d h0 w n k t p PL RM BE. exact (fresh_collide c d PL RM BE h0 w n k t p). Qed.

(** A block held when the copy was made can be given back through either, and only the
    one used first counts it as free. *)
Theorem C103_second_release_ignored : forall c d h l w x,
  placed c -> roomy c -> beside c d -> reachable c h l -> In x l ->
  exists t, pair_call c d w (copy_heap c d h) (Free (hd_ptr x)) = Ok (t, 0) /\
    free_heap_size (of_pair w t) = free_heap_size h + hd_fp x /\
    pair_call c d (other w) t (Free (hd_ptr x)) = Ok (t, 0) /\
    free_heap_size (of_pair (other w) t) = free_heap_size h.
Proof. intros c d h l w x PL RM BE. exact (release_twice c d PL RM BE h l w x). Qed.

(** The heap of 256 bytes with two blocks held and a gap below the second, and a copy of
    it 1024 bytes above (or below). *)
Example C103_ex_placed : placed c_ex /\ roomy c_ex /\ beside c_ex 1024 /\ beside c_ex (-1024).
Proof.
  split; [exact c_ex_placed|]. split; [exact c_ex_roomy|].
  split; constructor; vm_compute; intuition congruence.
Qed.
Definition ops_copy : list op := [Alloc 1; Alloc 40; Alloc 16; Free 65608].
Example C103_ex : runs ops_copy = true /\
  let h := fst (state_after ops_copy) in let l := snd (state_after ops_copy) in
  lowest_gap c_ex l 65608 /\ free_heap_size h = 184 /\
  let t := copy_heap c_ex 1024 h in
  match pair_call c_ex 1024 Original t (Alloc 8) with
  | Ok (t1, p) => p = 65608 /\
     match pair_call c_ex 1024 Copy t1 (Alloc 20) with Ok (_, q) => q = 65608 | _ => False end
  | _ => False
  end /\
  match pair_call c_ex 1024 Copy t (Free 65584) with
  | Ok (t1, _) => free_heap_size (p_copy t1) = 208 /\ free_heap_size (p_orig t1) = 184
  | _ => False
  end.
Proof.
  split; [vm_compute; reflexivity|]. cbv zeta.
  split; [|vm_compute; auto].
  assert (L : snd (state_after ops_copy) = [Held 65664 16 32; Held 65584 1 24]) by (vm_compute; reflexivity).
  rewrite L. intros a n (N & D & LO & _).
  destruct LO as [->|(b & I & <-)].
  - exfalso. specialize (D (Held 65584 1 24) (or_intror (or_introl eq_refl))).
    unfold disjoint, region_start in D. cbn [hd_ptr hd_fp] in D.
    change (area_start c_ex) with 65568 in D. lia.
  - destruct I as [<-|[<-|[]]]; unfold region_start; cbn [hd_ptr hd_fp]; lia.
Qed.

Print Assumptions C103_copy_answers_like_original.
Print Assumptions C103_copy_lives_in_the_original.
Print Assumptions C103_same_block_twice.
Print Assumptions C103_fresh_copies_collide.
Print Assumptions C103_second_release_ignored.
