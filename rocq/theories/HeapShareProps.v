(** C138: one heap used by several threads. *)
From Verif Require Import HeapShareProofs3 HeapProofs6.

(** A call that nobody interrupts has the effect it has in a single thread. *)
Theorem C138_turns : forall c h x h' r thr log i rest,
  alone c h x = Ok (h', r) -> nth_error thr i = Some (thread c (x :: rest)) ->
  exists sched, hrun c (HW h thr log) sched =
    Ok (HW h' (set_code thr i (thread c rest)) (log ++ [(i, x, r)])).
Proof.
  intros c h x h' r thr log i rest E N.
  assert (G : goes c h (thread c (x :: rest)) [(x, r)] h' (thread c rest)).
  { destruct x as [n|p]; cbn [alone thread calls] in *.
    - eapply goes_trans0; [apply alloc_goes, E|]. apply goes_out, goes_here.
    - destruct (deallocate c h p) as [h1| |] eqn:ED; cbn [bind] in E; try discriminate. injection E as <- <-.
      eapply goes_trans0; [apply free_goes, ED|]. apply goes_out, goes_here. }
  exact (goes_sched c _ _ _ _ _ G thr log i N).
Qed.

(** Two threads call allocate, and either call alone would return [p]: both can return [p].
    free_heap_size() falls for both, and below zero if need be (it then reports nearly 2^64). *)
Theorem C138_same_block_twice : forall c h l thr log i j n m p h1 h2 ri rj,
  placed c -> roomy c -> reachable c h l -> is_size n -> is_size m -> p <> 0 ->
  allocate c h n = Ok (h2, p) -> allocate c h m = Ok (h1, p) ->
  i <> j -> nth_error thr i = Some (thread c (HAlloc n :: ri)) -> nth_error thr j = Some (thread c (HAlloc m :: rj)) ->
  exists sched w, hrun c (HW h thr log) sched = Ok w /\
    w_log w = log ++ [(j, HAlloc m, p); (i, HAlloc n, p)] /\
    nth_error (w_threads w) i = Some (thread c ri) /\ nth_error (w_threads w) j = Some (thread c rj) /\
    free_heap_size (w_heap w) = (free_heap_size h1 - needed n) mod 2 ^ 64.
Proof.
  intros c h l thr log i j n m p h1 h2 ri rj PL RO RC NS MS PN EN EM IJ TI TJ.
  pose proof (placed_geo c PL RO) as G. destruct (inv_reachable c h l G RC) as (bl & R & _).
  set (K := fun q : Z => Out (HAlloc n) q (thread c ri)).
  destruct (alloc_stall c h bl n h2 p K G R NS EN PN) as (prev & PO & PA & G1).
  destruct (walk_facts c h bl n h2 p G R NS EN PN) as (_ & _ & W24 & WM & _ & A0 & AM & AE & _).
  destruct (walk_facts c h bl m h1 p G R MS EM PN) as (_ & _ & _ & _ & _ & _ & _ & _ & (x & XR & XS) & _).
  destruct (stale_goes c h1 prev (p - 16) (needed n) (Cb (fun cb => if (p =? 0) && cb then Fire (K p) else K p)) x
              G PO PA A0 AM AE W24 WM XR XS) as (h3 & G3 & F3 & _).
  destruct (goes_sched c _ _ _ _ _ G1 thr log i TI) as (s1 & H1).
  match type of H1 with _ = Ok (HW _ (set_code thr i ?d) _) => set (d1 := d) in * end.
  cbn [by_thread map] in H1. rewrite app_nil_r in H1.
  assert (TJ1 : nth_error (set_code thr i d1) j = Some (thread c (HAlloc m :: rj))) by (rewrite set_code_other by exact IJ; exact TJ).
  destruct (C138_turns c h (HAlloc m) h1 p (set_code thr i d1) log j rj EM TJ1) as (s2 & H2).
  assert (G4 : goes c h1 d1 [(HAlloc n, p)] h3 (thread c ri)).
  { unfold d1. eapply goes_trans0; [exact G3|]. apply goes_cb. replace (p =? 0) with false by lia. cbn [andb].
    apply goes_out, goes_here. }
  assert (TI1 : nth_error (set_code (set_code thr i d1) j (thread c rj)) i = Some d1).
  { rewrite set_code_other by congruence. exact (set_code_nth _ _ _ _ TI). }
  destruct (goes_sched c _ _ _ _ _ G4 _ (log ++ [(j, HAlloc m, p)]) i TI1) as (s3 & H3).
  exists (s1 ++ s2 ++ s3). eexists. split.
  { rewrite (hrun_app _ _ _ _ _ H1), (hrun_app _ _ _ _ _ H2). exact H3. }
  cbn [w_log w_threads w_heap by_thread map fst snd]. split; [rewrite <- app_assoc; reflexivity|].
  split; [exact (set_code_nth _ _ _ _ TI1)|]. split.
  { rewrite set_code_other by exact IJ. exact (set_code_nth _ _ _ _ TJ1). }
  exact F3.
Qed.

(** With nothing free, two threads free two different blocks: the second block can be lost.
    free_heap_size() counts both, but a request that does not fit the first one fails. *)
Theorem C138_freed_block_lost : forall c h l thr log i j b1 b2 ri rj,
  placed c -> roomy c -> reachable c h l -> free_heap_size h = 0 ->
  In b1 l -> In b2 l -> hd_ptr b1 <> hd_ptr b2 ->
  i <> j -> nth_error thr i = Some (thread c (HFree (hd_ptr b1) :: ri)) ->
  nth_error thr j = Some (thread c (HFree (hd_ptr b2) :: rj)) ->
  exists sched w, hrun c (HW h thr log) sched = Ok w /\
    w_log w = log ++ [(j, HFree (hd_ptr b2), 0); (i, HFree (hd_ptr b1), 0)] /\
    nth_error (w_threads w) i = Some (thread c ri) /\ nth_error (w_threads w) j = Some (thread c rj) /\
    free_heap_size (w_heap w) = hd_fp b1 + hd_fp b2 /\
    forall n, is_size n -> hd_fp b1 < needed n -> exists h', allocate c (w_heap w) n = Ok (h', 0).
Proof.
  intros c h l thr log i j b1 b2 ri rj PL RO RC F0 I1 I2 ND IJ TI TJ.
  pose proof (placed_geo c PL RO) as G.
  destruct (lost_goes c h l b1 b2 (Out (HFree (hd_ptr b1)) 0 (thread c ri)) (Out (HFree (hd_ptr b2)) 0 (thread c rj))
              G RC F0 I1 I2 ND) as (hA & dA & hB & hE & G1 & G2 & G3 & FE & AL).
  destruct (goes_sched c _ _ _ _ _ G1 thr log i TI) as (s1 & H1).
  cbn [by_thread map] in H1. rewrite app_nil_r in H1.
  assert (TJ1 : nth_error (set_code thr i dA) j = Some (thread c (HFree (hd_ptr b2) :: rj))) by (rewrite set_code_other by exact IJ; exact TJ).
  assert (G2' : goes c hA (thread c (HFree (hd_ptr b2) :: rj)) [(HFree (hd_ptr b2), 0)] hB (thread c rj)).
  { eapply goes_trans0; [exact G2|]. apply goes_out, goes_here. }
  assert (G3' : goes c hB dA [(HFree (hd_ptr b1), 0)] hE (thread c ri)).
  { eapply goes_trans0; [exact G3|]. apply goes_out, goes_here. }
  destruct (goes_sched c _ _ _ _ _ G2' _ log j TJ1) as (s2 & H2).
  assert (TI1 : nth_error (set_code (set_code thr i dA) j (thread c rj)) i = Some dA).
  { rewrite set_code_other by congruence. exact (set_code_nth _ _ _ _ TI). }
  destruct (goes_sched c _ _ _ _ _ G3' _ (log ++ by_thread j [(HFree (hd_ptr b2), 0)]) i TI1) as (s3 & H3).
  exists (s1 ++ s2 ++ s3). eexists. split.
  { rewrite (hrun_app _ _ _ _ _ H1), (hrun_app _ _ _ _ _ H2). exact H3. }
  cbn [w_log w_threads w_heap by_thread map fst snd]. split; [rewrite <- app_assoc; reflexivity|].
  split; [exact (set_code_nth _ _ _ _ TI1)|]. split.
  { rewrite set_code_other by exact IJ. exact (set_code_nth _ _ _ _ TJ1). }
  split; [exact FE|exact AL].
Qed.

(** Every call that changes free_heap_size() races with every allocate of a size in range. *)
Theorem C138_races : forall c h x h' r thr log i j n ri rj,
  is_size n -> 0 < n -> needed n < 2 ^ 63 ->
  alone c h x = Ok (h', r) -> free_heap_size h' <> free_heap_size h ->
  i <> j -> nth_error thr i = Some (thread c (HAlloc n :: ri)) -> nth_error thr j = Some (thread c (x :: rj)) ->
  exists sched w, hrun c (HW h thr log) sched = Ok w /\ racing w i j.
Proof.
  intros c h x h' r thr log i j n ri rj NS NP N63 E NE IJ TI TJ.
  assert (G : goes c h (thread c (x :: rj)) [(x, r)] h' (thread c rj)).
  { destruct x as [m|p]; cbn [alone thread calls] in *.
    - eapply goes_trans0; [apply alloc_goes, E|]. apply goes_out, goes_here.
    - destruct (deallocate c h p) as [h1| |] eqn:ED; cbn [bind] in E; try discriminate. injection E as <- <-.
      eapply goes_trans0; [apply free_goes, ED|]. apply goes_out, goes_here. }
  destruct (goes_put_free c _ _ _ _ _ G NE) as (o1 & h1 & v & k & G1).
  destruct (goes_sched c _ _ _ _ _ G1 thr log j TJ) as (s & H).
  exists s. eexists. split; [exact H|]. split; [exact IJ|].
  pose proof (needed_bounds n NP) as NB.
  assert (A : next_access (thread c (HAlloc n :: ri)) = Some (PField FFree, false)).
  { unfold thread. cbn [calls]. unfold alloc_code. rewrite adjust_spec by exact NS.
    replace (0 <? n) with true by lia. replace (needed n <? W64) with true by (rewrite W64_val; lia). cbn [andb].
    unfold heap_block_size_is_valid. rewrite bit_val, small_land_top by lia. cbn [Z.eqb].
    replace (0 <? needed n) with true by lia. reflexivity. }
  exists (thread c (HAlloc n :: ri)), (Put FFree v k), (PField FFree), false.
  cbn [w_threads]. split; [rewrite set_code_other by congruence; exact TI|].
  split; [exact (set_code_nth _ _ _ _ TJ)|]. split; [exact A|reflexivity].
Qed.

(** What a run shows: who got what, free_heap_size(), and the results of further allocations,
    each made after that run. *)
Definition seen (r : res hworld) (more : list Z) :=
  match r with
  | Ok w => Some (w_log w, free_heap_size (w_heap w),
                  map (fun n => match allocate c_ex (w_heap w) n with Ok (_, p) => Some p | _ => None end) more)
  | _ => None
  end.
(** A fresh heap with 240 usable bytes; both threads get 65584.  With 200 bytes each the counter
    wraps, and a further allocate(100) writes behind the array. *)
Example C138_ex_twice :
  seen (hrun c_ex (begin c_ex h_ex [[HAlloc 100]; [HAlloc 60]]) (repeat 0%nat 5 ++ repeat 1%nat 40 ++ repeat 0%nat 40)) [8]
    = Some ([(1%nat, HAlloc 60, 65584); (0%nat, HAlloc 100, 65584)], 40, [Some 65704]) /\
  seen (hrun c_ex (begin c_ex h_ex [[HAlloc 200]; [HAlloc 200]]) (repeat 0%nat 5 ++ repeat 1%nat 40 ++ repeat 0%nat 40)) [100]
    = Some ([(1%nat, HAlloc 200, 65584); (0%nat, HAlloc 200, 65584)], 2 ^ 64 - 216, [None]) /\
  (match allocate c_ex h_ex 100, allocate c_ex h_ex 60 with Ok (_, p), Ok (_, q) => (p, q) | _, _ => (0, 0) end) = (65584, 65584).
Proof. vm_compute. repeat split; reflexivity. Qed.
Example C138_ex_reachable : reachable c_ex h_ex [] /\ placed c_ex /\ roomy c_ex.
Proof.
  split; [exists h_ex, []; split; [apply h_ex_ok|constructor]|]. split; [apply c_ex_placed|apply c_ex_roomy].
Qed.
(** Two blocks of 120 bytes fill the heap.  Freed one inside the other: 240 bytes free, yet 200 cannot
    be had, nor a second time 100; freed one after the other, both can. *)
Definition full_ops : list op := [Alloc 104; Alloc 104].
Example C138_ex_lost :
  runs full_ops = true /\ free_heap_size (fst (state_after full_ops)) = 0 /\
  map hd_ptr (snd (state_after full_ops)) = [65704; 65584] /\
  seen (hrun c_ex (begin c_ex (fst (state_after full_ops)) [[HFree 65584]; [HFree 65704]])
          (repeat 0%nat 13 ++ repeat 1%nat 40 ++ repeat 0%nat 40)) [200; 105; 104]
    = Some ([(1%nat, HFree 65704, 0); (0%nat, HFree 65584, 0)], 240, [Some 0; Some 0; Some 65584]) /\
  seen (hrun c_ex (begin c_ex (fst (state_after full_ops)) [[HFree 65584]; [HFree 65704]])
          (repeat 0%nat 40 ++ repeat 1%nat 40)) [200; 105; 104]
    = Some ([(0%nat, HFree 65584, 0); (1%nat, HFree 65704, 0)], 240, [Some 65584; Some 65584; Some 65584]).
Proof. vm_compute. repeat split; reflexivity. Qed.
Example C138_ex_race :
  match hrun c_ex (begin c_ex h_ex [[HAlloc 100]; [HAlloc 60]]) (repeat 1%nat 16) with
  | Ok w => map next_access (w_threads w)
  | _ => []
  end = [Some (PField FFree, false); Some (PField FFree, true)].
Proof. vm_compute. reflexivity. Qed.

Print Assumptions C138_turns.
Print Assumptions C138_same_block_twice.
Print Assumptions C138_freed_block_lost.
Print Assumptions C138_races.
