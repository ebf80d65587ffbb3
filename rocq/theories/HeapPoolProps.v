(** C124: a client that always asks for the same amount. *)
From Verif Require Import HeapPoolProofs2 HeapProps.

(** Above 16 bytes the heap is an exact pool: a request succeeds when, and only when, fewer blocks
    are held than places exist, whatever was allocated and freed before in whatever order. *)
Theorem C124_exact_pool : forall c n h l m h' r,
  placed c -> roomy c -> 16 < n -> one_size c n h l -> is_size m -> needed m = needed n ->
  allocate c h m = Ok (h', r) -> (r <> 0 <-> Z.of_nat (length l) < places c n).
Proof.
  intros c n h l m h' r PL RM N. apply (pool_exact c PL RM n ltac:(lia) h l m h' r). unfold needed. lia.
Qed.
(** The block handed out is the lowest place not held. *)
Theorem C124_lowest_place : forall c n h l m h' r,
  placed c -> roomy c -> 16 < n -> one_size c n h l -> is_size m -> needed m = needed n ->
  allocate c h m = Ok (h', r) -> r <> 0 ->
  exists k, 0 <= k < places c n /\ r = place c n k /\ (forall b, In b l -> hd_ptr b <> r) /\
    forall i, 0 <= i < k -> exists b, In b l /\ hd_ptr b = place c n i.
Proof.
  intros c n h l m h' r PL RM N. apply (pool_lowest c PL RM n ltac:(lia) h l m h' r). unfold needed. lia.
Qed.
(** For every size the blocks sit in places, so there are never more blocks than places. *)
Theorem C124_in_places : forall c n h l,
  placed c -> roomy c -> 0 < n -> one_size c n h l ->
  Z.of_nat (length l) <= places c n /\
  forall b, In b l -> exists k, 0 <= k < places c n /\ hd_ptr b = place c n k.
Proof.
  intros c n h l PL RM N O. split; [exact (pool_most c PL RM n N h l O)|].
  intros b B. exact (pool_places c PL RM n N h l b O B).
Qed.
(** For every size a request succeeds while less than half of the places hold a block. *)
Theorem C124_half_is_sure : forall c n h l m h' r,
  placed c -> roomy c -> 0 < n -> one_size c n h l -> is_size m -> needed m = needed n ->
  allocate c h m = Ok (h', r) -> 2 * Z.of_nat (length l) < places c n -> r <> 0.
Proof. intros c n h l m h' r PL RM N. exact (pool_half c PL RM n N h l m h' r). Qed.
(** And up to 16 bytes no more is sure: on every heap some history of allocations and frees of that
    one size ends with a refusal while about half of the places hold a block. *)
Theorem C124_small_half_lost_refuted : forall c n,
  placed c -> roomy c -> 0 < n <= 16 ->
  exists h l, one_size c n h l /\ 2 * Z.of_nat (length l) <= places c n + 4 /\
    forall h' r, allocate c h n = Ok (h', r) -> r = 0.
Proof.
  intros c n PL RM N. apply (half_lost c PL RM n); [lia|unfold is_size; change W64 with (2 ^ 64); lia|unfold needed; lia].
Qed.

(** Six places for 20 bytes: full, two freed, both places used again, lowest first. *)
Definition ops_pool : list op :=
  [Alloc 20; Alloc 17; Calloc 2 10; Alloc 24; Alloc 20; Alloc 20; Free 65704; Free 65624].
Example C124_ex :
  places c_ex 20 = 6 /\
  one_size c_ex 20 (fst (state_after ops_pool)) (snd (state_after ops_pool)) /\
  length (snd (state_after ops_pool)) = 4%nat /\
  ret (allocate c_ex (fst (state_after ops_pool)) 20) = Some (place c_ex 20 1) /\
  runs (ops_pool ++ [Alloc 18; Calloc 20 1]) = true /\
  length (snd (state_after (ops_pool ++ [Alloc 18; Calloc 20 1]))) = 6%nat /\
  ret (allocate c_ex (fst (state_after (ops_pool ++ [Alloc 18; Calloc 20 1]))) 20) = Some 0.
Proof.
  split; [vm_compute; reflexivity|]. split.
  - exists h_ex, (events_of ops_pool). split; [apply h_ex_ok|]. split; [apply state_after_session; vm_compute; reflexivity|].
    vm_compute. repeat constructor.
  - split; [vm_compute; reflexivity|]. split; [vm_compute; reflexivity|]. split; [vm_compute; reflexivity|]. split; vm_compute; reflexivity.
Qed.
(** Ten places for 8 bytes; after freeing neighbours and allocating again five blocks fill them. *)
Definition ops_lost : list op :=
  repeat (Alloc 8) 9 ++ [Free 65584; Free 65608; Alloc 8; Free 65632; Free 65656; Alloc 8;
                         Free 65680; Free 65704; Alloc 8; Free 65728; Free 65752; Alloc 8].
Example C124_ex_lost :
  places c_ex 8 = 10 /\
  one_size c_ex 8 (fst (state_after ops_lost)) (snd (state_after ops_lost)) /\
  length (snd (state_after ops_lost)) = 5%nat /\
  ret (allocate c_ex (fst (state_after ops_lost)) 8) = Some 0 /\
  length (snd (state_after (repeat (Alloc 8) 9))) = 9%nat /\
  ret (allocate c_ex (fst (state_after (repeat (Alloc 8) 9))) 8) = Some 0.
Proof.
  split; [vm_compute; reflexivity|]. split.
  - exists h_ex, (events_of ops_lost). split; [apply h_ex_ok|]. split; [apply state_after_session; vm_compute; reflexivity|].
    vm_compute. repeat constructor.
  - split; [vm_compute; reflexivity|]. split; [vm_compute; reflexivity|]. split; vm_compute; reflexivity.
Qed.

Print Assumptions C124_exact_pool.
Print Assumptions C124_lowest_place.
Print Assumptions C124_in_places.
Print Assumptions C124_half_is_sure.
Print Assumptions C124_small_half_lost_refuted.
