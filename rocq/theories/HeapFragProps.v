(** C120, C121: the heap's future depends on the held blocks only; what fits, and fragmentation. *)
From Verif Require Import HeapFragProofs HeapProps.
From Coq Require Import Permutation.

(** ** C120 *)
(** Two histories that leave the client with the same blocks cannot be told apart by any later
    calls: same results, same free_heap_size() after every call. *)
Theorem C120_only_the_blocks_matter : forall c h1 h2 l1 l2,
  placed c -> roomy c -> reachable c h1 l1 -> reachable c h2 l2 -> Permutation l1 l2 ->
  free_heap_size h1 = free_heap_size h2 /\
  forall evs l', (exists h', session c h1 l1 evs h' l') <-> (exists h', session c h2 l1 evs h' l').
Proof. intros c h1 h2 l1 l2 PL RM. exact (history c PL RM h1 h2 l1 l2). Qed.
(** Allocating a block and freeing it leaves no trace in later results. *)
Theorem C120_allocate_then_free : forall c h l n h1 r h2,
  placed c -> roomy c -> reachable c h l -> is_size n ->
  allocate c h n = Ok (h1, r) -> r <> 0 -> deallocate c h1 r = Ok h2 ->
  free_heap_size h2 = free_heap_size h /\
  forall evs l', (exists h', session c h2 l evs h' l') <-> (exists h', session c h l evs h' l').
Proof.
  intros c h l n h1 r h2 PL RM R N A NZ D.
  exact (history c PL RM h2 h l l (back_again c PL RM h l n h1 r h2 R N A NZ D) R (Permutation_refl l)).
Qed.

Definition ops_one : list op := [Alloc 1; Alloc 40; Calloc 2 8; Free 65608].
Example C120_ex :
  reachable c_ex (fst (state_after ops_one)) (snd (state_after ops_one)) /\
  snd (state_after ops_one) = [Held 65664 16 32; Held 65584 1 24] /\
  let h := fst (state_after ops_one) in
  ret (allocate c_ex h 20) = Some 65608 /\
  match allocate c_ex h 20 with Ok (h1, r) => match deallocate c_ex h1 r with Ok h2 => free_heap_size h2 = 184 | _ => False end | _ => False end.
Proof.
  split; [apply state_after_reachable; vm_compute; reflexivity|]. split; [vm_compute; reflexivity|].
  split; vm_compute; reflexivity.
Qed.
(** Another history with the same two blocks, got in the other order. *)
Definition ops_other : list op := [Alloc 64; Alloc 16; Free 65584; OnFail true; Alloc 1; ResetMin].
Example C120_other_ex :
  reachable c_ex (fst (state_after ops_other)) (snd (state_after ops_other)) /\
  Permutation (snd (state_after ops_one)) (snd (state_after ops_other)) /\
  snd (state_after ops_one) <> snd (state_after ops_other).
Proof.
  split; [apply state_after_reachable; vm_compute; reflexivity|].
  assert (E1 : snd (state_after ops_one) = [Held 65664 16 32; Held 65584 1 24]) by (vm_compute; reflexivity).
  assert (E2 : snd (state_after ops_other) = [Held 65584 1 24; Held 65664 16 32]) by (vm_compute; reflexivity).
  rewrite E1, E2. split; [apply perm_swap|discriminate].
Qed.

(** ** C121 *)
(** Freeing a block never makes a request fail that would have succeeded. *)
Theorem C121_freeing_helps : forall c h l b h1 n h' r h1' r1,
  placed c -> roomy c -> reachable c h l -> In b l -> deallocate c h (hd_ptr b) = Ok h1 -> is_size n ->
  allocate c h n = Ok (h', r) -> allocate c h1 n = Ok (h1', r1) -> r <> 0 -> r1 <> 0 /\ r1 <= r.
Proof. intros c h l b h1 n h' r h1' r1 PL RM. exact (free_one c PL RM h l b h1 n h' r h1' r1). Qed.
(** A smaller request, or the same request with fewer blocks held, succeeds whenever the larger
    one does, at the same or a lower address. *)
Theorem C121_fewer_or_smaller : forall c h1 h2 l1 l2 n m h1' h2' r1 r2,
  placed c -> roomy c -> reachable c h1 l1 -> reachable c h2 l2 ->
  (forall b, In b l2 -> In b l1) -> is_size n -> 0 < m <= n ->
  allocate c h1 n = Ok (h1', r1) -> allocate c h2 m = Ok (h2', r2) -> r1 <> 0 -> r2 <> 0 /\ r2 <= r1.
Proof. intros c h1 h2 l1 l2 n m h1' h2' r1 r2 PL RM. exact (fewer_blocks c PL RM h1 h2 l1 l2 n m h1' h2' r1 r2). Qed.
(** A request is certain to succeed when the free bytes exceed what can be lost: at most one gap
    more than there are blocks, each too small by 8 bytes. *)
Theorem C121_enough_is_enough : forall c h l n h' r,
  placed c -> roomy c -> reachable c h l -> is_size n -> 0 < n -> allocate c h n = Ok (h', r) ->
  (needed n - 8) * (Z.of_nat (length l) + 1) < free_heap_size h -> r <> 0.
Proof. intros c h l n h' r PL RM. exact (enough_free c PL RM h l n h' r). Qed.
(** Free bytes alone promise little: for every size there is a history after which about half of
    the heap is free and no larger request succeeds. *)
Theorem C121_half_free_refuted : forall c m,
  placed c -> roomy c -> is_size m -> 0 < m -> needed m + 40 <= area_end c - area_start c ->
  exists h l, reachable c h l /\ area_end c - area_start c < 2 * free_heap_size h + needed m + 40 /\
    forall n h' r, is_size n -> needed m < needed n -> allocate c h n = Ok (h', r) -> r = 0.
Proof. intros c m PL RM MS MP BIG. exact (fragmented c PL RM m MS MP BIG). Qed.

(** Two blocks and 184 free bytes: 45 bytes are certain to fit.  With every other one of eight
    small blocks freed, 96 bytes are free and 9 do not fit. *)
Definition ops_comb : list op :=
  repeat (Alloc 8) 8 ++ [Alloc 32] ++ map (fun j => Free (65584 + 48 * j)) [0; 1; 2; 3].
Example C121_ex :
  free_heap_size (fst (state_after ops_ex)) = 184 /\
  (needed 45 - 8) * (Z.of_nat (length (snd (state_after ops_ex))) + 1) < 184 /\
  ret (allocate c_ex (fst (state_after ops_ex)) 45) = Some 65696 /\
  runs ops_comb = true /\ free_heap_size (fst (state_after ops_comb)) = 96 /\
  ret (allocate c_ex (fst (state_after ops_comb)) 9) = Some 0 /\
  ret (allocate c_ex (fst (state_after ops_comb)) 8) = Some 65584 /\
  needed 8 + 40 <= area_end c_ex - area_start c_ex.
Proof. vm_compute. repeat split; reflexivity || discriminate. Qed.

Print Assumptions C120_only_the_blocks_matter.
Print Assumptions C120_allocate_then_free.
Print Assumptions C121_freeing_helps.
Print Assumptions C121_fewer_or_smaller.
Print Assumptions C121_enough_is_enough.
Print Assumptions C121_half_free_refuted.
