(** Property C112: progress of pipeline_stage and pipeline_stage_pool while they run. *)
From Verif Require Import PipelineProofs3.

(** C112.  Stage, at most BufferSize items pushed altogether, any moment [w]: if the pushes of
    the first [j] items have returned, then five worker steps for each of them not yet processed
    and one more are enough, whatever the producers and the destructor do meanwhile. *)
Theorem C112_stage_progress B progs s w j s' w' :
  (0 < B)%nat -> (total progs <= B)%nat -> prun B (stage_start B progs) s = Ok w ->
  settled w 0 j -> prun B w s' = Ok w' ->
  (5 * (j - length (processed w 0)) + 1 <= steps_of 0 s')%nat ->
  exists more, processed w' 0 = firstn j (map snd (pushed w 0)) ++ more.
Proof.
  intros BP L R ST R' LS.
  assert (R2 : prun B (stage_start B progs) (s ++ s') = Ok w') by (rewrite prun_app, R; exact R').
  pose proof (pushed_le_total B 1 1 progs _ w' 0 R2).
  apply (run_progress B 1 1 progs BP (le_n 1) s w 0 j s' w' R ltac:(lia) ST R' ltac:(lia) LS).
Qed.
(** The first push has returned, the second and third are under way, the worker is idle. *)
Example C112_ex_progress :
  exists w w', prun 4 (stage_start 4 [[10; 11]; [20]; [30]])
                 [W 0; W 0; P 0 0; P 0 0; P 1 0; P 2 0; P 0 0; W 0; P 2 0] = Ok w /\
    settled w 0 1 /\ processed w 0 = [] /\ ~ no_push w /\
    prun 4 w (repeat (W 0) 3 ++ [P 0 0] ++ repeat (W 0) 3) = Ok w' /\ processed w' 0 = [10].
Proof.
  eexists. eexists. split; [vm_compute; reflexivity|]. split.
  { split; [vm_compute; lia|]. intros k p i v E H. cbn in E.
    destruct k as [|[|[|k]]]; cbn in E; [| | |destruct k; discriminate]; inversion E; subst; cbn in H;
      destruct H as [H|H]; inversion H; lia. }
  split; [vm_compute; reflexivity|]. split.
  { intros H. specialize (H (Prod [] (PTicket 0 1 20))). cbn in H. specialize (H ltac:(tauto)). discriminate. }
  split; [vm_compute; reflexivity|]. vm_compute. reflexivity.
Qed.

(** No push under way: everything pushed is processed. *)
Theorem C112_catches_up B progs s w s' w' :
  (0 < B)%nat -> (total progs <= B)%nat -> prun B (stage_start B progs) s = Ok w -> no_push w ->
  prun B w s' = Ok w' -> (5 * (length (pushed w 0) - length (processed w 0)) + 1 <= steps_of 0 s')%nat ->
  exists more, processed w' 0 = map snd (pushed w 0) ++ more.
Proof.
  intros BP L R NP R' LS.
  destruct (C112_stage_progress B progs s w _ s' w' BP L R (no_push_settled w 0 NP) R' LS) as [more E].
  exists more. rewrite E, <- (map_length snd (pushed w 0)), firstn_all. reflexivity.
Qed.

(** The number of calls of the function catches up like this under any load. *)
Theorem C112_any_load B progs s w j s' w' :
  (0 < B)%nat -> prun B (stage_start B progs) s = Ok w -> settled w 0 j -> prun B w s' = Ok w' ->
  (5 * (j - length (processed w 0)) + 1 <= steps_of 0 s')%nat -> (j <= length (processed w' 0))%nat.
Proof.
  intros BP R ST R' LS. destruct (reach_inv B 1 1 progs BP (le_n 1) s w R) as (I & _ & _ & _).
  exact (progress B 1 1 BP (le_n 1) w s' w' 0 j I ltac:(lia) ST R' LS).
Qed.

(** The other way round: a producer that stops inside push, holding ticket [i], keeps the item with
    that ticket and all later ones back, for as long as it is stopped and however many steps the worker gets. *)
Theorem C112_stalled_push_blocks B progs s w k p i v s' w' :
  (0 < B)%nat -> (total progs <= B)%nat -> prun B (stage_start B progs) s = Ok w ->
  nth_error (p_prods w) k = Some p -> (pr_pc p = PTicket 0 i v \/ pr_pc p = PStoring 0 i v) ->
  prun B w s' = Ok w' -> (forall n, ~ In (P k n) s') ->
  (length (processed w' 0) <= i)%nat.
Proof.
  intros BP L R EP HP R' N.
  assert (R2 : prun B (stage_start B progs) (s ++ s') = Ok w') by (rewrite prun_app, R; exact R').
  pose proof (pushed_le_total B 1 1 progs _ w' 0 R2).
  apply (run_blocked B 1 1 progs BP (le_n 1) s w 0 k p i v s' w' R ltac:(lia) EP HP R' N). lia.
Qed.
(** Producer 1 stops with ticket 1; the push of 11 with ticket 2 returns; forty worker steps later
    only the item before has been processed. *)
Example C112_ex_blocked :
  exists w w', prun 4 (stage_start 4 [[10; 11]; [20]]) [P 0 0; P 1 0; P 0 0; P 0 0; P 0 0; P 0 0; P 0 0] = Ok w /\
    nth_error (p_prods w) 1 = Some (Prod [] (PTicket 0 1 20)) /\
    pushed w 0 = [(0%nat, 10); (1%nat, 20); (0%nat, 11)] /\
    prun 4 w (repeat (W 0) 40) = Ok w' /\ processed w' 0 = [10].
Proof. eexists. eexists. do 4 (split; [vm_compute; reflexivity|]). vm_compute; reflexivity. Qed.

(** The same for each queue of a pool that has a worker. *)
Theorem C112_pool_progress B PoolSize progs s w n j s' w' :
  (0 < B)%nat -> (PoolSize <= 8)%nat -> (n < PoolSize)%nat ->
  prun B (pool_start B PoolSize progs) s = Ok w ->
  settled w n j -> prun B w s' = Ok w' -> (length (pushed w' n) <= B)%nat ->
  (5 * (j - length (processed w n)) + 1 <= steps_of n s')%nat ->
  exists more, processed w' n = firstn j (map snd (pushed w n)) ++ more.
Proof.
  intros BP NW LN R ST R' LB LS. exact (run_progress B 8 PoolSize progs BP NW s w n j s' w' R LN ST R' LB LS).
Qed.
Example C112_ex_pool :
  exists w w', prun 2 (pool_start 2 3 [[10; 11]; [20]]) [P 0 0; P 0 0; P 1 1; P 1 1; P 1 1] = Ok w /\
    settled w 1 1 /\ pushed w 1 = [(1%nat, 20)] /\ ~ no_push w /\
    prun 2 w (repeat (W 1) 6) = Ok w' /\ processed w' 1 = [20].
Proof.
  eexists. eexists. split; [vm_compute; reflexivity|]. split.
  { split; [vm_compute; lia|]. intros k p i v E H. cbn in E.
    destruct k as [|[|k]]; cbn in E; [| |destruct k; discriminate]; inversion E; subst; cbn in H;
      destruct H as [H|H]; inversion H; lia. }
  split; [vm_compute; reflexivity|]. split.
  { intros H. specialize (H (Prod [11] (PStoring 0 0 10))). cbn in H. specialize (H ltac:(tauto)). discriminate. }
  split; [vm_compute; reflexivity|]. vm_compute. reflexivity.
Qed.

Print Assumptions C112_stage_progress.
Print Assumptions C112_catches_up.
Print Assumptions C112_any_load.
Print Assumptions C112_stalled_push_blocks.
Print Assumptions C112_pool_progress.
