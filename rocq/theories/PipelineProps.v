(** Properties C43-C49: pipeline_stage and pipeline_stage_pool. *)
From Verif Require Import PipelineProofs2.

(** C43.  [total progs]: the number of items the producers push altogether. *)
Theorem C43_exactly_once_in_order B progs s w :
  (0 < B)%nat -> (total progs <= B)%nat -> prun B (stage_start B progs) s = Ok w ->
  (exists rest, map snd (pushed w 0) = processed w 0 ++ rest) /\
  (all_done w ->
     processed w 0 = map snd (pushed w 0) /\ Permutation (processed w 0) (concat progs) /\
     forall k, (k < length progs)%nat -> by_producer k (pushed w 0) = nth k progs []).
Proof.
  intros BP L R. assert (NW : (1 <= 1)%nat) by lia.
  destruct (reach_inv B 1 1 progs BP NW s w R) as (I & _ & _ & HP).
  assert (EQ : exists q, p_queues w = [q]).
  { pose proof (g_nq _ _ _ _ I). destruct (p_queues w) as [|q [|]]; try discriminate. exists q. reflexivity. }
  destruct EQ as [q EQ]. assert (E0 : nth_error (p_queues w) 0 = Some q) by (rewrite EQ; reflexivity).
  pose proof (log_le_total progs w 0 q HP E0) as LL.
  unfold pushed, processed. rewrite E0. split.
  - exists (skipn (length (q_done q)) (map snd (q_log q))). apply (bounded_prefix B 1 1 progs BP NW s w R 0 q E0). lia.
  - intros D. destruct (done_all_pushed B 1 1 progs BP NW s w R 0 q ltac:(lia) D E0) as [C LD].
    assert (EE : q_done q = map snd (q_log q)).
    { rewrite (bounded_prefix B 1 1 progs BP NW s w R 0 q E0) by lia.
      rewrite LD, <- (map_length snd (q_log q)), skipn_all, app_nil_r. reflexivity. }
    split; [exact EE|]. split.
    + rewrite EE. unfold pinv in HP. rewrite (closed_unpushed B 1 1 progs BP NW s w R C), app_nil_r in HP.
      unfold all_pushed in HP. rewrite EQ in HP. cbn in HP. rewrite app_nil_r in HP. exact HP.
    + intros k Lk. destruct (prun_oinv B progs s _ w (ginv_start B 1 1 BP NW progs) BP (oinv_start B progs) R) as [OL O].
      destruct (nth_error (p_prods w) k) as [p|] eqn:EP; [|apply nth_error_None in EP; lia].
      specialize (O k p EP). unfold pushed in O. rewrite E0 in O. rewrite <- O.
      pose proof (g_closed _ _ _ _ I C p (nth_error_In _ _ EP)) as HI. apply idle_true in HI.
      destruct HI as [-> _]. rewrite app_nil_r. reflexivity.
Qed.
(** Two producers, a worker in between, and the destructor. *)
Example C43_example :
  match prun 3 (stage_start 3 [[10; 11]; [20]])
          ([W 0; P 0 0; P 1 0; W 0; W 0; P 1 0; P 1 0; W 0; P 0 0; P 0 0; W 0; P 0 0; W 0; W 0; P 0 0; P 0 0; Close]
           ++ repeat (W 0) 30) with
  | Ok w => p_workers w = [WDone] /\ pushed w 0 = [(0%nat, 10); (1%nat, 20); (0%nat, 11)] /\ processed w 0 = [10; 20; 11]
  | _ => False
  end.
Proof. vm_compute. repeat split; reflexivity. Qed.

(** No interleaving makes the worker read an empty slot, whatever is pushed. *)
Theorem C43_never_undefined B progs s : (0 < B)%nat -> exists w, prun B (stage_start B progs) s = Ok w.
Proof.
  intros BP. destruct (prun_ok B 1 1 BP (le_n 1) s _ (ginv_start B 1 1 BP (le_n 1) progs)) as (w & E & _).
  exists w. exact E.
Qed.

(** Once the flag is set the worker ends after finitely many of its own steps, whatever
    the schedule, so the destructor's join returns. *)
Theorem C43_destructor_returns B progs s w s' w' :
  (0 < B)%nat -> prun B (stage_start B progs) s = Ok w -> p_closed w = true ->
  prun B w s' = Ok w' -> (5 * waiting w 0 + 5 <= steps_of 0 s')%nat -> all_done w'.
Proof.
  intros BP R C R' L pc Hin. assert (NW : (1 <= 1)%nat) by lia.
  destruct (reach_inv B 1 1 progs BP NW s w R) as (I & _ & _ & _).
  pose proof (prun_rank B 1 1 BP NW s' w w' 0 I C R') as (_ & I' & _).
  apply In_nth_error in Hin. destruct Hin as [n EW].
  assert (n = 0)%nat by (apply nth_lt in EW; rewrite (g_nw _ _ _ _ I') in EW; lia). subst n.
  eapply (finishes B 1 1 BP NW w s' w' 0 pc I C R' L EW).
Qed.
Example C43_destructor_example :
  exists w w', prun 2 (stage_start 2 [[5]; [6]]) [P 0 0; P 1 0; P 0 0; P 1 0; P 1 0; P 0 0; Close] = Ok w /\
    p_closed w = true /\ waiting w 0 = 2%nat /\ prun 2 w (repeat (W 0) 15) = Ok w' /\ processed w' 0 = [5; 6].
Proof.
  eexists. eexists. split; [vm_compute; reflexivity|]. split; [vm_compute; reflexivity|].
  split; [vm_compute; reflexivity|]. split; [vm_compute; reflexivity|]. vm_compute. reflexivity.
Qed.

(** C44.  What survives when more than BufferSize items are pushed. *)
Theorem C44_counts_any_load B progs s w :
  (0 < B)%nat -> prun B (stage_start B progs) s = Ok w ->
  (forall v, In v (processed w 0) -> In v (map snd (pushed w 0))) /\
  (length (processed w 0) <= length (pushed w 0))%nat /\
  (all_done w -> length (processed w 0) = length (pushed w 0)).
Proof.
  intros BP R. assert (NW : (1 <= 1)%nat) by lia.
  destruct (reach_inv B 1 1 progs BP NW s w R) as (I & _ & _ & _).
  unfold processed, pushed. destruct (nth_error (p_queues w) 0) as [q|] eqn:E0; [|split; [intros v []|split; reflexivity]].
  split; [exact (qg_done _ _ _ _ (g_q _ _ _ _ I 0%nat q E0))|]. split.
  - exact (done_le B 1 1 BP NW w 0 q I E0 ltac:(lia)).
  - intros D. apply (done_all_pushed B 1 1 progs BP NW s w R 0 q ltac:(lia) D E0).
Qed.
Example C44_example :
  match prun 1 (stage_start 1 [[7; 8; 9]]) (repeat (P 0 0) 9 ++ [Close] ++ repeat (W 0) 30) with
  | Ok w => p_workers w = [WDone] /\ processed w 0 = [9; 9; 9]
  | _ => False
  end.
Proof. vm_compute. repeat split; reflexivity. Qed.

(** For every BufferSize and all values: one item too many before the worker looks, and the
    first item is replaced by the last. *)
Theorem C44_each_item_once_refuted B v0 mid z :
  B = S (length mid) ->
  exists s w, prun B (stage_start B [v0 :: mid ++ [z]]) s = Ok w /\ all_done w /\
    map snd (pushed w 0) = v0 :: mid ++ [z] /\ processed w 0 = z :: mid ++ [z].
Proof. apply burst_run. Qed.
(** A worker that has always kept up does not help: it reads the old item of the slot. *)
Theorem C44_prompt_worker_refuted B v0 mid z :
  B = S (length mid) ->
  exists s w, prun B (stage_start B [v0 :: mid ++ [z]]) s = Ok w /\ all_done w /\
    map snd (pushed w 0) = v0 :: mid ++ [z] /\ processed w 0 = v0 :: mid ++ [v0].
Proof. apply stale_run. Qed.

(** C45.  Within the first BufferSize pushes the value handed to the function is not being
    written while it is read. *)
Theorem C45_value_read_race_free B progs s w i k p j v :
  (0 < B)%nat -> (total progs <= B)%nat -> prun B (stage_start B progs) s = Ok w ->
  nth_error (p_workers w) 0 = Some (WRead i) ->
  nth_error (p_prods w) k = Some p -> pr_pc p = PStoring 0 j v ->
  (j mod B)%nat <> (i mod B)%nat.
Proof.
  intros BP L R EW EP EC EM. assert (NW : (1 <= 1)%nat) by lia.
  destruct (reach_inv B 1 1 progs BP NW s w R) as (I & _ & H & HP).
  destruct (g_p _ _ _ _ I k p 0%nat j v EP (or_intror EC)) as (q & E0 & EL).
  pose proof (log_le_total progs w 0 q HP E0) as LL.
  destruct (H 0%nat q E0 ltac:(lia)) as [_ H2 _]. specialize (H2 k p j v EP (or_intror EC)).
  pose proof (g_w _ _ _ _ I 0%nat q _ E0 EW) as (W1 & [x Hx] & W3).
  rewrite <- EM in Hx. apply nth_lt in EL. rewrite Nat.mod_small in Hx by lia. congruence.
Qed.
Example C45_example :
  exists w, prun 2 (stage_start 2 [[5]; [6]])
              [W 0; P 0 0; P 1 0; P 0 0; P 1 0; P 0 0; W 0; W 0; W 0] = Ok w /\
    nth_error (p_workers w) 0 = Some (WRead 0) /\
    (exists p, nth_error (p_prods w) 1 = Some p /\ pr_pc p = PStoring 0 1 6).
Proof.
  eexists. split; [vm_compute; reflexivity|]. split; [vm_compute; reflexivity|].
  eexists. split; [vm_compute; reflexivity|]. vm_compute. reflexivity.
Qed.

(** But the readiness flag is read while it is being written: in every state where the worker
    waits for work, the next push can race with it. *)
Theorem C45_slots_race_free_refuted B progs s w k p v rest q :
  (0 < B)%nat -> prun B (stage_start B progs) s = Ok w ->
  nth_error (p_workers w) 0 = Some WInner -> nth_error (p_queues w) 0 = Some q -> q_head q = q_tail q ->
  nth_error (p_prods w) k = Some p -> pr_pc p = PIdle -> pr_items p = v :: rest ->
  exists w', prun B w [P k 0; P k 0; W 0] = Ok w' /\ racing B w'.
Proof.
  intros BP R EW E0 EH EP EC EI.
  assert (LK : (k < length (p_prods w))%nat) by (eapply nth_lt; exact EP).
  assert (L0 : (0 < length (p_queues w))%nat) by (eapply nth_lt; exact E0).
  assert (LW : (0 < length (p_workers w))%nat) by (eapply nth_lt; exact EW).
  cbn [prun pstep]. rewrite EP, EC, EI, E0. cbn [bind pstep p_prods p_queues p_workers p_closed].
  rewrite upd_same by exact LK. cbn [pr_pc pr_items bind pstep p_prods p_queues p_workers p_closed].
  rewrite EW, upd_same by exact L0. cbn [wstep bind take_ticket q_head q_tail p_closed].
  destruct (Nat.ltb_spec (q_head q) (S (q_tail q))); [|lia]. eexists. split; [reflexivity|].
  exists 0%nat, (take_ticket q k v), WCheck, k, (Prod rest (PStoring 0 (q_tail q) v)), (q_tail q), v.
  cbn [p_queues p_workers p_prods].
  repeat split.
  - apply upd_same. rewrite upd_len. exact L0.
  - apply upd_same. exact LW.
  - apply upd_same. rewrite upd_len. exact LK.
  - cbn. rewrite EH. reflexivity.
Qed.
Example C45_refuted_example :
  exists w q p, prun 4 (stage_start 4 [[5; 6]]) [W 0] = Ok w /\
    nth_error (p_workers w) 0 = Some WInner /\ nth_error (p_queues w) 0 = Some q /\ q_head q = q_tail q /\
    nth_error (p_prods w) 0 = Some p /\ pr_pc p = PIdle /\ pr_items p = [5; 6].
Proof.
  do 3 eexists. do 6 (split; [vm_compute; reflexivity|]). vm_compute. reflexivity.
Qed.

(** C46.  [ms]: the measurements (time, backlog) of all items processed so far. *)
Theorem C46_statistics_window ms :
  fold_left stat_push ms [] = firstn 10 (rev ms) /\ (length (fold_left stat_push ms []) <= 10)%nat.
Proof.
  pose proof (run_stat_window ms) as E. unfold run_stat in E. split; [exact E|].
  rewrite E, firstn_length. lia.
Qed.
Theorem C46_reports_mean ms :
  (forall t b, In (t, b) ms -> Z.abs t <= 214748364 /\ Z.abs b <= 214748364) ->
  time_for_unit (fold_left stat_push ms []) = Ok (Z.quot (zsum (map fst (firstn 10 (rev ms)))) 10) /\
  buffer_utilization (fold_left stat_push ms []) = Ok (Z.quot (zsum (map snd (firstn 10 (rev ms)))) 10).
Proof.
  intros H. pose proof (run_stat_window ms) as E. unfold run_stat in E. rewrite E.
  assert (L : (length (firstn 10 (rev ms)) <= 10)%nat) by (rewrite firstn_length; lia).
  assert (HI : forall m, In m (firstn 10 (rev ms)) -> Z.abs (fst m) <= 214748364 /\ Z.abs (snd m) <= 214748364).
  { intros [t b] Hm. apply H. apply in_rev. rewrite <- (firstn_skipn 10 (rev ms)). apply in_or_app. left. exact Hm. }
  unfold time_for_unit, buffer_utilization, measure_points. split.
  - rewrite (int_sum_ok _ 0 214748364).
    + reflexivity.
    + lia.
    + intros x Hx. apply in_map_iff in Hx. destruct Hx as (m & <- & Hm). specialize (HI m Hm). lia.
    + rewrite map_length. lia.
    + rewrite map_length. lia.
  - rewrite (int_sum_ok _ 0 214748364).
    + reflexivity.
    + lia.
    + intros x Hx. apply in_map_iff in Hx. destruct Hx as (m & <- & Hm). specialize (HI m Hm). lia.
    + rewrite map_length. lia.
    + rewrite map_length. lia.
Qed.
(** And when they are undefined: exactly if adding up, newest first, leaves the range of int. *)
Theorem C46_overflow_exact ms :
  let window := firstn 10 (rev ms) in
  let fits l := forall k, - 2 ^ 31 <= zsum (firstn k l) < 2 ^ 31 in
  (fits (map fst window) -> time_for_unit (fold_left stat_push ms []) = Ok (Z.quot (zsum (map fst window)) 10)) /\
  (~ fits (map fst window) -> time_for_unit (fold_left stat_push ms []) = UB) /\
  (fits (map snd window) -> buffer_utilization (fold_left stat_push ms []) = Ok (Z.quot (zsum (map snd window)) 10)) /\
  (~ fits (map snd window) -> buffer_utilization (fold_left stat_push ms []) = UB).
Proof.
  cbv zeta. pose proof (run_stat_window ms) as E. unfold run_stat in E. rewrite E.
  unfold time_for_unit, buffer_utilization, measure_points.
  assert (G : forall l, ((forall k, - 2 ^ 31 <= zsum (firstn k l) < 2 ^ 31) -> int_sum 0 l = Ok (zsum l)) /\
                        (~ (forall k, - 2 ^ 31 <= zsum (firstn k l) < 2 ^ 31) -> int_sum 0 l = UB)).
  { intros l. destruct (int_sum_exact l 0) as [(A & B)|(A & k & B & K)].
    - split; [intros _; exact A|]. intros N. exfalso. apply N. intros k.
      destruct k as [|k]; [cbn [firstn zsum]; lia|]. destruct (Nat.le_gt_cases (S k) (length l)) as [L|L].
      + apply (B (S k)); lia.
      + rewrite firstn_all2 by lia. destruct l as [|x l]; [cbn [zsum]; lia|].
        rewrite <- (firstn_all (x :: l)). apply (B (length (x :: l))); cbn [length]; lia.
    - split; [|intros _; exact A]. intros F. exfalso. apply B. apply F. }
  pose proof (G (map fst (firstn 10 (rev ms)))) as [G1 G2]. pose proof (G (map snd (firstn 10 (rev ms)))) as [G3 G4].
  split; [intros F; rewrite (G1 F); reflexivity|]. split; [intros F; rewrite (G2 F); reflexivity|].
  split; [intros F; rewrite (G3 F); reflexivity|]. intros F; rewrite (G4 F); reflexivity.
Qed.
Example C46_overflow_example :
  time_for_unit (fold_left stat_push (repeat (214748365, 0) 10) []) = UB /\
  buffer_utilization (fold_left stat_push (repeat (214748365, 0) 10) []) = Ok 0.
Proof. split; reflexivity. Qed.
Example C46_example :
  time_for_unit (fold_left stat_push [(100, 1); (1, 0); (2, 0); (3, 0); (4, 0); (5, 0); (6, 0); (7, 0); (8, 0); (9, 0); (10, 5)] [])
  = Ok 5.
Proof. reflexivity. Qed.

(** C47. *)
Theorem C47_least_loaded_queue backlogs n b :
  nth_error backlogs n = Some b -> b < 2147483647 ->
  exists m, nth_error backlogs (min_thread backlogs) = Some m /\
    (forall j x, nth_error backlogs j = Some x -> m <= x) /\
    (forall j x, (j < min_thread backlogs)%nat -> nth_error backlogs j = Some x -> m < x).
Proof.
  intros E L. change 2147483647 with INT_MAX in L. unfold min_thread. destruct (min_from_spec backlogs 0 INT_MAX 0) as [(_ & H)|(j & x & -> & Ej & _ & H1 & H2)].
  - specialize (H n b E). lia.
  - exists x. cbn [Nat.add]. tauto.
Qed.
Theorem C47_default_queue backlogs :
  (forall n b, nth_error backlogs n = Some b -> 2147483647 <= b) -> min_thread backlogs = 0%nat.
Proof.
  intros H. change 2147483647 with INT_MAX in H. unfold min_thread. destruct (min_from_spec backlogs 0 INT_MAX 0) as [(E & _)|(j & x & _ & Ej & L & _)].
  - exact E.
  - specialize (H j x Ej). lia.
Qed.
Example C47_example : min_thread [5; 3; 4; 3; 9; 3; 7; 8] = 1%nat.
Proof. reflexivity. Qed.

(** C48.  The pool has eight queues; with eight workers each has its own. *)
Theorem C48_pool_exactly_once B progs s w :
  (0 < B)%nat -> prun B (pool_start B 8 progs) s = Ok w ->
  (forall n, length (pushed w n) <= B)%nat -> all_done w ->
  (forall n, processed w n = map snd (pushed w n)) /\
  Permutation (all_processed w) (concat progs).
Proof.
  intros BP R L D. assert (NW : (8 <= 8)%nat) by lia.
  destruct (reach_inv B 8 8 progs BP NW s w R) as (I & _ & _ & HP).
  assert (EE : forall n q, nth_error (p_queues w) n = Some q -> q_done q = map snd (q_log q)).
  { intros n q E. specialize (L n). unfold pushed in L. rewrite E in L.
    assert (LN : (n < 8)%nat) by (rewrite <- (g_nq _ _ _ _ I); eapply nth_lt; exact E).
    destruct (done_all_pushed B 8 8 progs BP NW s w R n q LN D E) as [C LD].
    rewrite (bounded_prefix B 8 8 progs BP NW s w R n q E) by lia.
    rewrite LD, <- (map_length snd (q_log q)), skipn_all, app_nil_r. reflexivity. }
  split.
  - intros n. unfold processed, pushed. destruct (nth_error (p_queues w) n) as [q|] eqn:E; [|reflexivity]. apply (EE n q E).
  - assert (C : p_closed w = true).
    { destruct (nth_error (p_queues w) 0) as [q|] eqn:E0.
      - apply (done_all_pushed B 8 8 progs BP NW s w R 0 q ltac:(lia) D E0).
      - apply nth_error_None in E0. rewrite (g_nq _ _ _ _ I) in E0. lia. }
    unfold pinv in HP. rewrite (closed_unpushed B 8 8 progs BP NW s w R C), app_nil_r in HP. rewrite <- HP.
    unfold all_processed, all_pushed. erewrite map_ext_in; [reflexivity|]. intros q Hq.
    apply In_nth_error in Hq. destruct Hq as [n E]. exact (EE n q E).
Qed.
Example C48_example :
  exists w, prun 2 (pool_start 2 8 [[10; 11]; [20; 21]])
      ([P 0 0; P 1 0; P 1 0; P 0 0; P 0 0; P 1 0; P 0 3; P 0 3; W 3; P 1 7; P 1 7; P 1 7; P 0 3; Close]
       ++ concat (map (fun n => repeat (W n) 20) (seq 0 8))) = Ok w /\
    p_workers w = repeat WDone 8 /\ all_processed w = [10; 20; 11; 21] /\
    map (fun n => length (pushed w n)) (seq 0 9) = [2; 0; 0; 1; 0; 0; 0; 1; 0]%nat.
Proof.
  eexists. do 3 (split; [vm_compute; reflexivity|]). vm_compute. reflexivity.
Qed.

Theorem C48_pool_never_undefined B progs s : (0 < B)%nat -> exists w, prun B (pool_start B 8 progs) s = Ok w.
Proof.
  intros BP. destruct (prun_ok B 8 8 BP (le_n 8) s _ (ginv_start B 8 8 BP (le_n 8) progs)) as (w & E & _).
  exists w. exact E.
Qed.
Theorem C48_pool_destructor_returns B progs s w s' w' :
  (0 < B)%nat -> prun B (pool_start B 8 progs) s = Ok w -> p_closed w = true ->
  prun B w s' = Ok w' -> (forall n, (n < 8)%nat -> (5 * waiting w n + 5 <= steps_of n s')%nat) -> all_done w'.
Proof.
  intros BP R C R' L pc Hin. assert (NW : (8 <= 8)%nat) by lia.
  destruct (reach_inv B 8 8 progs BP NW s w R) as (I & _ & _ & _).
  pose proof (prun_rank B 8 8 BP NW s' w w' 0 I C R') as (_ & I' & _).
  apply In_nth_error in Hin. destruct Hin as [n EW].
  assert (LN : (n < 8)%nat) by (apply nth_lt in EW; rewrite (g_nw _ _ _ _ I') in EW; lia).
  eapply (finishes B 8 8 BP NW w s' w' n pc I C R' (L n LN) EW).
Qed.

(** Items of one producer need not be processed in its order: the second one, put into
    another queue, can come first. *)
Theorem C48_order_across_queues_refuted B a b : (0 < B)%nat ->
  exists s w, prun B (pool_start B 8 [[a; b]]) s = Ok w /\ min_followed B (pool_start B 8 [[a; b]]) s /\
    pushed w 0 = [(0%nat, a)] /\ processed w 0 = [] /\ pushed w 1 = [(0%nat, b)] /\ processed w 1 = [b].
Proof.
  intros HB. destruct B as [|B']; [lia|].
  assert (M : (0 mod S B' = 0)%nat) by (apply Nat.mod_0_l; lia).
  exists [P 0 0; P 0 0; P 0 0; P 0 1; P 0 1; P 0 1; W 1; W 1; W 1; W 1; W 1]. eexists. split; [|split].
  - cbn -[Nat.modulo]. unfold store. cbn -[Nat.modulo]. repeat (rewrite M; cbn -[Nat.modulo]). reflexivity.
  - cbn [min_followed].
    repeat (split; [first [exact Logic.I | intros p Hp Hc; cbn in Hp; injection Hp as <-; first [discriminate Hc | reflexivity]]
                   |intros w' E; cbn -[Nat.modulo] in E; unfold store in E; cbn -[Nat.modulo] in E;
                    repeat (rewrite M in E; cbn -[Nat.modulo] in E); injection E as <-]).
    exact Logic.I.
  - repeat split; reflexivity.
Qed.

(** C49.  Fewer workers than eight: nothing in the queues of the missing workers is ever
    processed, the destructor does not wait for it, and already PoolSize+1 pushes get there. *)
Theorem C49_orphan_queues_never_processed B PoolSize progs s w n :
  (0 < B)%nat -> (PoolSize <= n)%nat -> (PoolSize <= 8)%nat ->
  prun B (pool_start B PoolSize progs) s = Ok w -> processed w n = [].
Proof.
  intros BP L NW R. destruct (reach_inv B 8 PoolSize progs BP NW s w R) as (_ & U & _).
  unfold processed. destruct (nth_error (p_queues w) n) as [q|] eqn:E; [|reflexivity]. exact (U n q L E).
Qed.
Theorem C49_small_pool_refuted B PoolSize items :
  (0 < B)%nat -> (PoolSize < 8)%nat -> length items = S PoolSize ->
  exists s w, prun B (pool_start B PoolSize [items]) s = Ok w /\
    min_followed B (pool_start B PoolSize [items]) s /\ all_done w /\
    all_pushed w = items /\ exists v, map snd (pushed w PoolSize) = [v] /\ processed w PoolSize = [].
Proof. intros BP. apply pool_lost, BP. Qed.
(** More workers than eight: worker 8 looks at a ninth queue, in every state. *)
Theorem C49_large_pool_refuted B w n pc :
  length (p_queues w) = 8%nat -> (8 <= n)%nat -> nth_error (p_workers w) n = Some pc -> pstep B w (W n) = UB.
Proof.
  intros L Ln E. cbn [pstep]. rewrite E. destruct (nth_error (p_queues w) n) eqn:EQ; [|reflexivity].
  apply nth_lt in EQ. lia.
Qed.
Example C49_example : prun 4 (pool_start 4 9 [[1]]) [P 0 0; W 0; W 8] = UB.
Proof. reflexivity. Qed.

Print Assumptions C43_exactly_once_in_order.
Print Assumptions C43_never_undefined.
Print Assumptions C43_destructor_returns.
Print Assumptions C44_counts_any_load.
Print Assumptions C44_each_item_once_refuted.
Print Assumptions C44_prompt_worker_refuted.
Print Assumptions C45_value_read_race_free.
Print Assumptions C45_slots_race_free_refuted.
Print Assumptions C46_statistics_window.
Print Assumptions C46_reports_mean.
Print Assumptions C46_overflow_exact.
Print Assumptions C47_least_loaded_queue.
Print Assumptions C47_default_queue.
Print Assumptions C48_pool_exactly_once.
Print Assumptions C48_pool_never_undefined.
Print Assumptions C48_pool_destructor_returns.
Print Assumptions C48_order_across_queues_refuted.
Print Assumptions C49_orphan_queues_never_processed.
Print Assumptions C49_small_pool_refuted.
Print Assumptions C49_large_pool_refuted.
