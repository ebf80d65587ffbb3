(** std::list in a static heap: C136. *)
From Verif Require Import HeapProps HeapListSpec HeapListProofs7.

(** No command of a correct program is undefined or runs forever. *)
Theorem C136_defined : forall c sz w lo evs k,
  placed c -> roomy c -> 0 < sz -> node_size sz < 2 ^ 63 -> lruns c sz w lo evs -> lpermitted c sz w lo k ->
  exists w' r, lstep c sz w k = Ok (w', r).
Proof.
  intros c sz w lo evs k PL RM SP SB RU P. destruct (lruns_step c sz PL RM SP SB w lo evs k RU P) as (l & _ & w' & r & _ & S & _). eauto.
Qed.

(** The lists are sequences: a loop over each finds exactly the elements the commands put there, in
    their order and where they were put, whatever the lists and other users of the heap did. *)
Theorem C136_lists_are_sequences : forall c sz w lo evs,
  placed c -> roomy c -> 0 < sz -> node_size sz < 2 ^ 63 -> lruns c sz w lo evs -> map (forwards c sz w) (lh_lists w) = on_seqs_all evs.
Proof.
  intros c sz w lo evs PL RM SP SB RU. destruct (lruns_inv c sz PL RM SP SB w lo evs RU) as [l I]. exact (linv_lists c sz w l lo _ I).
Qed.
(** The loop stops at end(), which is the list object; backwards it finds the same and stops there
    too; size() is the number of elements. *)
Theorem C136_both_ways : forall c sz w lo evs a,
  placed c -> roomy c -> 0 < sz -> node_size sz < 2 ^ 63 -> lruns c sz w lo evs -> In a (lh_lists w) ->
  let n := Z.to_nat (size_of c w a) in
  size_of c w a = Z.of_nat (length (forwards c sz w a)) /\ backwards c sz w a = rev (forwards c sz w a) /\
  after c w 0 n (word c w a) = a /\ after c w 8 n (word c w (a + 8)) = a.
Proof.
  intros c sz w lo evs a PL RM SP SB RU IA n. destruct (lruns_inv c sz PL RM SP SB w lo evs RU) as [l I].
  apply In_nth_error in IA. destruct IA as [i EA]. pose proof (linv_at c sz w l lo _ i a I EA) as ES.
  destruct (list_loops c sz w l a _ (li_ok _ _ _ _ _ _ I i a _ EA ES)) as (_ & B & A1 & A2 & Z). auto.
Qed.
(** No two elements, of whatever lists, are in the same place, and none is where another user's block is. *)
Theorem C136_places : forall c sz w lo evs i j a b m n p q x y,
  placed c -> roomy c -> 0 < sz -> node_size sz < 2 ^ 63 -> lruns c sz w lo evs ->
  nth_error (lh_lists w) i = Some a -> nth_error (forwards c sz w a) m = Some (p, x) ->
  (nth_error (lh_lists w) j = Some b -> nth_error (forwards c sz w b) n = Some (q, y) -> (i, m) <> (j, n) -> disjoint p (node_size sz) q (node_size sz)) /\
  (forall d, In d lo -> disjoint p (node_size sz) (hd_ptr d) (hd_req d)).
Proof.
  intros c sz w lo evs i j a b m n p q x y PL RM SP SB RU EA EM. destruct (lruns_inv c sz PL RM SP SB w lo evs RU) as [l I].
  pose proof (linv_at c sz w l lo _ i a I EA) as ES. pose proof (li_ok _ _ _ _ _ _ I i a _ EA ES) as K. pose proof (li_reach _ _ _ _ _ _ I) as R.
  assert (P : In p (HeapListProofs.addrs (forwards c sz w a))) by (change p with (fst (p, x)); apply in_map, (nth_error_In _ _ EM)).
  destruct (node_block c sz w l a _ p K P) as (bp & BP & HP & HQ). split.
  - intros EB EN NE. pose proof (linv_at c sz w l lo _ j b I EB) as ET. pose proof (li_ok _ _ _ _ _ _ I j b _ EB ET) as K2.
    assert (Q : In q (HeapListProofs.addrs (forwards c sz w b))) by (change q with (fst (q, y)); apply in_map, (nth_error_In _ _ EN)).
    destruct (node_block c sz w l b _ q K2 Q) as (bq & BQ & HP2 & HQ2).
    assert (D : hd_ptr bp <> hd_ptr bq).
    { rewrite HP, HP2. destruct (Nat.eq_dec i j) as [->|NJ].
      - rewrite EA in EB. injection EB as <-. intros ->. apply NE. f_equal. pose proof (lk_nodup _ _ _ _ _ _ K) as ND.
        assert (L : (m < length (HeapListProofs.addrs (forwards c sz w a)))%nat) by (unfold HeapListProofs.addrs; rewrite map_length; apply nth_error_Some; congruence).
        apply (proj1 (NoDup_nth_error _) ND m n L). unfold HeapListProofs.addrs. rewrite !nth_error_map, EM, EN. reflexivity.
      - intros ->. exact (li_disj _ _ _ _ _ _ I i j _ _ q ES ET NJ P Q). }
    pose proof (blocks_apart c PL RM _ l bp bq R BP BQ D) as H. rewrite HP, HP2, HQ, HQ2 in H. exact H.
  - intros d D. assert (N : hd_ptr bp <> hd_ptr d).
    { rewrite HP. intros E. apply (li_lo _ _ _ _ _ _ I i _ p ES P). rewrite E. apply in_map, D. }
    pose proof (blocks_apart c PL RM _ l bp d R BP (li_others _ _ _ _ _ _ I d D) N) as H. rewrite HP, HQ in H. exact H.
Qed.

(** erase(it) returns the iterator to the element after the erased one, or end(). *)
Theorem C136_erase_next : forall c sz w lo evs i p a s1 x s2,
  placed c -> roomy c -> 0 < sz -> node_size sz < 2 ^ 63 -> lruns c sz w lo evs ->
  nth_error (lh_lists w) i = Some a -> forwards c sz w a = s1 ++ (p, x) :: s2 ->
  exists w', lstep c sz w (LErase i p) = Ok (w', LIter (hd a (map fst s2))).
Proof.
  intros c sz w lo evs i p a s1 x s2 PL RM SP SB RU EA EF.
  assert (P : lpermitted c sz w lo (LErase i p)).
  { exists a. split; [exact EA|]. rewrite EF, map_app. apply in_or_app. right. left. reflexivity. }
  destruct (lruns_step c sz PL RM SP SB w lo evs _ RU P) as (l & I & w' & r & _ & S & _ & _ & _ & _ & (a' & t1 & y & t2 & EA' & EF' & ->)).
  rewrite EA in EA'. injection EA' as <-. exists w'. rewrite S. do 4 f_equal.
  pose proof (linv_at c sz w l lo _ i a I EA) as ES. pose proof (list_nodup c sz PL RM SP w l lo _ i a _ I EA ES) as ND. apply NoDup_cons_iff in ND. destruct ND as [_ ND].
  assert (ND1 : NoDup (map fst (s1 ++ (p, x) :: s2))) by (rewrite <- EF; exact ND). assert (ND2 : NoDup (map fst (t1 ++ (p, y) :: t2))) by (rewrite <- EF'; exact ND).
  destruct (nodup_split p x s1 s2 ND1) as [N1 _]. destruct (nodup_split p y t1 t2 ND2) as [N2 _]. rewrite EF in EF'. clear -EF' N1 N2.
  revert t1 EF' N2. induction s1 as [|e s1 IH]; intros [|f t1] E N2; cbn [app] in E.
  - injection E as _ ->. reflexivity.
  - injection E as <- _. exfalso. apply N2. left. reflexivity.
  - injection E as -> _. exfalso. apply N1. left. reflexivity.
  - injection E as -> E. cbn [map In] in N1, N2. apply (IH ltac:(intros H; apply N1; auto) t1 E). intros H. apply N2. auto.
Qed.

(** Iterators and pointers to elements stay good: only removing an element ends its stay in its
    place, and only assigning to it changes it. *)
Theorem C136_stays : forall c sz w lo evs k w' r i a p x,
  placed c -> roomy c -> 0 < sz -> node_size sz < 2 ^ 63 -> lruns c sz w lo evs -> lpermitted c sz w lo k -> lstep c sz w k = Ok (w', r) ->
  nth_error (lh_lists w) i = Some a -> In (p, x) (forwards c sz w a) -> ~ about i p (forwards c sz w a) k ->
  nth_error (lh_lists w') i = Some a /\ In (p, x) (forwards c sz w' a).
Proof.
  intros c sz w lo evs k w' r i a p x PL RM SP SB RU P S EA IN NA. destruct (lruns_inv c sz PL RM SP SB w lo evs RU) as [l I].
  pose proof (linv_at c sz w l lo _ i a I EA) as ES. pose proof (list_nodup c sz PL RM SP w l lo _ i a _ I EA ES) as ND. apply NoDup_cons_iff in ND.
  destruct (seqs_keep _ k r i _ p x ES (proj2 ND) IN NA) as (s' & ES' & IN').
  pose proof (C136_lists_are_sequences c sz w' _ _ PL RM SP SB (lr_step c sz w lo evs k w' r RU P S)) as CO.
  assert (EV : on_seqs_all (evs ++ [(k, r)]) = on_seqs (on_seqs_all evs) k r) by (unfold on_seqs_all; rewrite fold_left_app; reflexivity).
  rewrite EV in CO. assert (EA' : nth_error (lh_lists w') i = Some a).
  { apply (lists_stay c sz w k w' r i a S EA). }
  split; [exact EA'|]. rewrite <- CO, nth_error_map, EA' in ES'. cbn in ES'. injection ES' as <-. exact IN'.
Qed.

(** The bytes other users hold are theirs. *)
Theorem C136_others_kept : forall c sz w lo evs k w' r,
  placed c -> roomy c -> 0 < sz -> node_size sz < 2 ^ 63 -> lruns c sz w lo evs -> lpermitted c sz w lo k -> lstep c sz w k = Ok (w', r) ->
  lis_other k = false -> forall b x, In b lo -> hd_ptr b <= x < hd_ptr b + hd_req b -> h_mem (lh_heap w') x = h_mem (lh_heap w) x.
Proof.
  intros c sz w lo evs k w' r PL RM SP SB RU P S IO. destruct (lruns_step c sz PL RM SP SB w lo evs k RU P) as (l & _ & w1 & r1 & _ & S1 & _ & _ & _ & K & _).
  rewrite S in S1. injection S1 as <- <-. exact (K IO).
Qed.

(** std::bad_alloc is thrown exactly when a node is needed and no stretch between the blocks in use
    is long enough for one. *)
Theorem C136_bad_alloc : forall c sz w lo evs l k w' r,
  placed c -> roomy c -> 0 < sz -> node_size sz < 2 ^ 63 -> lruns c sz w lo evs -> lin_use c sz w lo l -> lpermitted c sz w lo k -> lstep c sz w k = Ok (w', r) ->
  (r = LBadAlloc <-> needs_node k = true /\ ~ exists a, free_window c l a (node_size sz)).
Proof.
  intros c sz w lo evs l k w' r PL RM SP SB RU U P S. destruct (lruns_inv c sz PL RM SP SB w lo evs RU) as [l0 I0].
  pose proof (use_linv c sz w l0 l lo _ I0 U) as I. destruct (lfine_step c sz PL RM SP SB w l lo _ k I P) as (w1 & r1 & _ & S1 & _ & B & _).
  rewrite S in S1. injection S1 as <- <-. exact B.
Qed.
Theorem C136_in_use : forall c sz w lo evs,
  placed c -> roomy c -> 0 < sz -> node_size sz < 2 ^ 63 -> lruns c sz w lo evs -> exists l, lin_use c sz w lo l.
Proof.
  intros c sz w lo evs PL RM SP SB RU. destruct (lruns_inv c sz PL RM SP SB w lo evs RU) as [l I]. exists l. exact (linv_use c sz w l lo _ I).
Qed.
(** A command that throws changes nothing: not the list objects, not the heap, not a byte. *)
Theorem C136_throw_changes_nothing : forall c sz w lo evs k w' r,
  placed c -> roomy c -> 0 < sz -> node_size sz < 2 ^ 63 -> lruns c sz w lo evs -> lpermitted c sz w lo k -> lstep c sz w k = Ok (w', r) -> lmissing r = true ->
  unchanged (lh_heap w) (lh_heap w') /\ lh_words w' = lh_words w /\ lh_lists w' = lh_lists w.
Proof.
  intros c sz w lo evs k w' r PL RM SP SB RU P S T. destruct (lruns_step c sz PL RM SP SB w lo evs k RU P) as (l & _ & w1 & r1 & _ & S1 & _ & _ & U & _).
  rewrite S in S1. injection S1 as <- <-. exact (U T).
Qed.

(** Destroying the lists, at any moment, gives back everything they took. *)
Theorem C136_no_leak : forall c sz w lo evs h0,
  placed c -> roomy c -> 0 < sz -> node_size sz < 2 ^ 63 -> lruns c sz w lo evs -> construct c = Ok h0 ->
  exists w', lexec c sz w (map LDrop (seq 0 (length (lh_lists w)))) = Ok (w', repeat LDone (length (lh_lists w))) /\
    free_heap_size (lh_heap w') + total_footprint lo = free_heap_size h0.
Proof.
  intros c sz w lo evs h0 PL RM SP SB RU E0.
  destruct (ldrops c sz PL RM SP SB (length (lh_lists w)) w lo evs 0%nat RU) as (w' & evs' & S & RU' & F); [reflexivity|intros i s L; lia|].
  exists w'. split; [exact S|]. exact (list_total c sz PL RM SP SB w' lo evs' h0 RU' E0 F).
Qed.

(** Two lists of ints and another user in a heap with 240 usable bytes; a node takes 40 of them. *)
Definition int4 (n : Z) : elem := [n; 0; 0; 0].
Definition ks_ex : list lcmd :=
  [LNew 800; LNew 832; LPushBack 0 (int4 1); LOther (Alloc 8); LPushBack 1 (int4 9); LPushFront 0 (int4 2); LOther (Write 65624 77);
   LInsert 0 65584 (int4 3); LSet 0 65584 (int4 4); LPushBack 1 (int4 5); LPushBack 1 (int4 6); LErase 0 65584; LPushBack 1 (int4 7); LPopFront 1; LPopBack 0].
Definition run_ex (ks : list lcmd) := lcheck c_ex 4 (LH h_ex (fun _ => 0) []) [] [] ks.
Definition out {A} (f : lheap * list held * list (lcmd * lret) -> A) (ks : list lcmd) : option A :=
  match run_ex ks with Some x => Some (f x) | None => None end.
Example C136_ex :
  out (fun x => map (forwards c_ex 4 (fst (fst x))) (lh_lists (fst (fst x)))) (firstn 11 ks_ex) =
    Some [[(65688, int4 2); (65728, int4 3); (65584, int4 4)]; [(65648, int4 9); (65768, int4 5)]] /\
  out (fun x => map (backwards c_ex 4 (fst (fst x))) (lh_lists (fst (fst x)))) (firstn 11 ks_ex) =
    Some [[(65584, int4 4); (65728, int4 3); (65688, int4 2)]; [(65768, int4 5); (65648, int4 9)]] /\
  out (fun x => map snd (snd x)) ks_ex =
    Some [LDone; LDone; LIter 65584; LGot 65624; LIter 65648; LIter 65688; LGot 0; LIter 65728; LDone; LIter 65768; LBadAlloc; LIter 800; LIter 65584; LDone; LDone] /\
  out (fun x => map (forwards c_ex 4 (fst (fst x))) (lh_lists (fst (fst x)))) ks_ex =
    Some [[(65688, int4 2)]; [(65768, int4 5); (65584, int4 7)]] /\
  out (fun x => snd (fst x)) ks_ex = Some [Held 65624 8 24] /\
  out (fun x => h_mem (lh_heap (fst (fst x))) 65624) ks_ex = Some 77 /\
  out (fun x => free_heap_size (lh_heap (fst (fst x)))) ks_ex = Some 80 /\
  out (fun x => free_heap_size (lh_heap (fst (fst x)))) (ks_ex ++ [LDrop 0; LDrop 1]) = Some (240 - 24).
Proof. vm_compute. repeat split. Qed.
Example C136_ex_runs : exists w lo evs, lruns c_ex 4 w lo evs /\ length evs = 15%nat.
Proof.
  assert (H : out (fun x => length (snd x)) ks_ex = Some 15%nat) by (vm_compute; reflexivity). unfold out in H.
  destruct (run_ex ks_ex) as [x|] eqn:E; [|discriminate H]. injection H as H.
  exists (fst (fst x)), (snd (fst x)), (snd x). split; [|exact H].
  apply (lcheck_runs c_ex 4 ks_ex (LH h_ex (fun _ => 0) []) [] [] x); [constructor; exact h_ex_ok|exact E].
Qed.

Print Assumptions C136_defined.
Print Assumptions C136_lists_are_sequences.
Print Assumptions C136_both_ways.
Print Assumptions C136_places.
Print Assumptions C136_erase_next.
Print Assumptions C136_stays.
Print Assumptions C136_others_kept.
Print Assumptions C136_bad_alloc.
Print Assumptions C136_in_use.
Print Assumptions C136_throw_changes_nothing.
Print Assumptions C136_no_leak.
