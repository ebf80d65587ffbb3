(** Properties of networks of stages and pools. *)
From Verif Require Import FlowProofs5.
From Verif Require Export FlowSpec.

(** ** C115 *)

(** Nodes destroyed after the nodes feeding them: nothing is undefined, however the functions
    branch, join, or push back into their own node. *)
Theorem C115_never_undefined nodes B func progs s :
  (forall m, (0 < B m)%nat) -> sound_sizes nodes ->
  (forall log m v, within nodes (func log m v)) -> (forall k, within nodes (progs k)) ->
  feeders_first nodes B func (fstart B progs) s ->
  exists w, frun nodes B func (fstart B progs) s = Ok w.
Proof.
  intros BP SS WF WP FF. apply (run_runs nodes B func BP progs s SS WF); [apply (finv_start nodes B func)|apply aimed_start, WP|exact FF].
Qed.
(** What a function is going to push is what it answers in that call. *)
Theorem C115_calls nodes B func progs s w l1 m n v out l2 :
  frun nodes B func (fstart B progs) s = Ok w -> f_log w = l1 ++ FCall m n v out :: l2 -> out = func l1 m v.
Proof.
  intros R E. apply (honest_run nodes B func s _ _ R) in E; [exact E|].
  intros l3 a b x o l4 HE. destruct l3; discriminate HE.
Qed.
(** Every thread pushes what it was told to, in that order. *)
Theorem C115_sent_in_order nodes B func progs s w src :
  (forall m, (0 < B m)%nat) -> frun nodes B func (fstart B progs) s = Ok w ->
  exists rest, told progs src (f_log w) = sent_by src (f_log w) ++ rest.
Proof.
  intros BP R. exists (s_items (f_send w src)). rewrite told_given.
  apply (i_sent nodes B progs w). eapply run_inv; [exact BP|apply (finv_start nodes B func)|exact R].
Qed.
(** Every queue is worked off in the order of its pushes. *)
Theorem C115_queues_in_order nodes B func progs s w m n :
  (forall m, (0 < B m)%nat) -> frun nodes B func (fstart B progs) s = Ok w -> fits B w ->
  exists rest, in_queue m n (f_log w) = called_by m n (f_log w) ++ rest.
Proof.
  intros BP R F.
  assert (V : vinv B w) by (eapply run_vinv; [exact BP|apply (finv_start nodes B func)|apply vinv_start|exact R]).
  destruct (V F) as [_ V2]. exists (skipn (length (called_by m n (f_log w))) (in_queue m n (f_log w))).
  pose proof (firstn_skipn (length (called_by m n (f_log w))) (in_queue m n (f_log w))) as FS.
  rewrite <- V2 in FS. symmetry. exact FS.
Qed.
(** A stage that only one thread, or one other stage, pushes into gets its items in order. *)
Theorem C115_one_feeder_in_order nodes B func progs s w m src :
  (forall m, (0 < B m)%nat) -> frun nodes B func (fstart B progs) s = Ok w -> fits B w ->
  kind_of nodes m = Stage -> only_source nodes func progs m src ->
  exists rest, for_node m (told progs src (f_log w)) = called m (f_log w) ++ rest.
Proof.
  intros BP R F KS OS. eapply from_one; try eassumption.
  - eapply run_inv; [exact BP|apply (finv_start nodes B func)|exact R].
  - eapply run_vinv; [exact BP|apply (finv_start nodes B func)|apply vinv_start|exact R].
  - apply (honest_run nodes B func s _ _ R). intros l3 a b x o l4 HE. destruct l3; discriminate HE.
Qed.
(** When everything is destroyed, every node was called exactly once with every item pushed
    into it, from outside or by a function; a stage may feed itself. *)
Theorem C115_exactly_once nodes B func progs np s w m :
  (forall m, (0 < B m)%nat) -> whole nodes ->
  (forall log m v, within nodes (func log m v)) -> (forall k, within nodes (progs k)) ->
  (forall k, (np <= k)%nat -> progs k = []) ->
  (forall k, feeds func k k -> kind_of nodes k = Stage) ->
  feeders_first nodes B func (fstart B progs) s ->
  frun nodes B func (fstart B progs) s = Ok w -> all_over nodes w -> fits B w -> (m < length nodes)%nat ->
  Permutation (called m (f_log w)) (for_node m (flat_map progs (seq 0 np)) ++ for_node m (outs (f_log w))).
Proof.
  intros BP WH WF WP NP SF FF R O F L. eapply exactly_once; try eassumption.
  - eapply run_inv; [exact BP|apply (finv_start nodes B func)|exact R].
  - eapply run_vinv; [exact BP|apply (finv_start nodes B func)|apply vinv_start|exact R].
  - eapply run_dinv; [exact BP|exact progs|exact SF|exact WF|apply aimed_start, WP|apply dinv_start|exact FF|exact R].
Qed.
(** A node being destroyed, its feeders gone, is gone after so many steps of each worker;
    [K] bounds what one call pushes. *)
Theorem C115_destructors_return nodes B func progs s w s' w' m K :
  (forall m, (0 < B m)%nat) -> sound_sizes nodes ->
  (forall log m v, within nodes (func log m v)) -> (forall k, within nodes (progs k)) ->
  feeders_first nodes B func (fstart B progs) (s ++ s') ->
  frun nodes B func (fstart B progs) s = Ok w -> frun nodes B func w s' = Ok w' ->
  (m < length nodes)%nat -> In (FDestroy m) s -> ~ feeds func m m ->
  (forall log v, (length (func log m v) <= K)%nat) ->
  (forall n, (n < workers_of (kind_of nodes m))%nat -> ((pending w m n + 1) * (5 + 3 * K) <= turns m n s')%nat) ->
  gone nodes w' m = true.
Proof.
  intros BP SS WF WP FF R R' L D NF KB T. pose proof (closed_after nodes B func s _ _ m R D) as C.
  apply gone_intro.
  - assert (G : forall s1 w0 w1, frun nodes B func w0 s1 = Ok w1 -> f_closed w0 m = true -> f_closed w1 m = true).
    { induction s1 as [|a s1 IH]; intros w0 w1; cbn [frun]; [intros H; injection H as <-; auto|].
      destruct (fstep nodes B func w0 a) as [w2| |] eqn:E; cbn [bind]; [|discriminate|discriminate]. intros R0 C0.
      apply (IH w2 w1 R0). eapply closed_stays'; [eapply step_moves, E|exact C0]. }
    exact (G s' w w' R' C).
  - intros n Hn. eapply (ends nodes B func BP progs m n K); try eassumption; [|apply T, Hn].
    split; [exact L|split; [exact Hn|]].
    destruct (kind_of nodes m) as [|z] eqn:EK; cbn [workers_of queues_of] in *; [exact Hn|].
    assert (HI : In (Pool z) nodes) by (rewrite <- EK; apply nth_In, L). pose proof (SS z HI). lia.
Qed.

(** A pool that feeds itself can lose an item: a worker that has ended is given one by another
    that is still in its function.  All else is as it should be. *)
Definition C115_down (log : list fev) (m : nat) (v : Z) : list (nat * Z) := if 0 <? v then [(0%nat, v - 1)] else [].
Definition C115_loss : list fagent :=
  repeat (FOut 0 0) 3 ++ [FDestroy 0] ++ flat_map (fun n => repeat (FWork 0 n 0) 4) (seq 1 7) ++ repeat (FWork 0 0 1) 16.
Theorem C115_pool_feeds_itself_refuted :
  let nodes := [Pool 8] in let B := fun _ => 4%nat in
  let progs := fun k : nat => if (k =? 0)%nat then [(0%nat, 1)] else [] in
  whole nodes /\ (forall log m v, within nodes (C115_down log m v)) /\
  feeders_first nodes B C115_down (fstart B progs) C115_loss /\
  exists w, frun nodes B C115_down (fstart B progs) C115_loss = Ok w /\ all_over nodes w /\ fits B w /\
            outs (f_log w) = [(0%nat, 0)] /\ called 0 (f_log w) = [1].
Proof.
  cbv zeta. set (nodes := [Pool 8]). set (B := fun _ : nat => 4%nat).
  set (progs := fun k : nat => if (k =? 0)%nat then [(0%nat, 1)] else []).
  assert (NP : forall k, (1 <= k)%nat -> progs k = []) by (intros [|k] L; [lia|reflexivity]).
  split; [|split; [|split]].
  - intros k [<-|[]]. right. reflexivity.
  - intros log m v a x H. unfold C115_down in H. destruct (0 <? v); [|destruct H]. destruct H as [H|[]]. injection H as <- _. cbn. lia.
  - apply (checkb_ok nodes B C115_down 1%nat (fun _ m => (m =? 0)%nat)).
    + intros k m (log & v & x & H). unfold C115_down in H. destruct (0 <? v); [|destruct H]. destruct H as [H|[]].
      injection H as <- _. reflexivity.
    + apply rest_idle_start, NP.
    + vm_compute. reflexivity.
  - destruct (frun nodes B C115_down (fstart B progs) C115_loss) as [w| |] eqn:E.
    + exists w. split; [reflexivity|].
      assert (RI : rest_idle 1%nat w) by (eapply rest_idle_run; [exact E|apply rest_idle_start, NP]).
      assert (EO : match frun nodes B C115_down (fstart B progs) C115_loss with
                   | Ok x => overb nodes 1%nat x = true /\ f_log x = [FPush (Outsider 0) 0 0 1; FCall 0 0 1 [(0%nat, 0)]; FPush (Worker 0 0) 0 1 0]
                   | _ => False end) by (vm_compute; repeat split; reflexivity).
      rewrite E in EO. destruct EO as [EO EL]. split; [eapply overb_ok; eassumption|]. rewrite EL.
      split; [|split; reflexivity].
      intros m q. rewrite EL. unfold B. cbn [in_queue flat_map]. 
      destruct ((0 =? m)%nat && (0 =? q)%nat), ((0 =? m)%nat && (1 =? q)%nat); cbn; lia.
    + exfalso. revert E. vm_compute. discriminate.
    + exfalso. revert E. vm_compute. discriminate.
Qed.
(** Stages that feed each other cannot be destroyed safely in either order. *)
Definition C115_pong (log : list fev) (m : nat) (v : Z) : list (nat * Z) := if 0 <? v then [((1 - m)%nat, v - 1)] else [].
Theorem C115_cycle_refuted m : (m < 2)%nat ->
  let nodes := [Stage; Stage] in let B := fun _ => 4%nat in
  let progs := fun k : nat => if (k =? 0)%nat then [((1 - m)%nat, 1)] else [] in
  exists s1 s2 w, frun nodes B C115_pong (fstart B progs) s1 = Ok w /\ (forall k, idle_sender (f_send w (Outsider k)) = true) /\
    frun nodes B C115_pong w (FDestroy m :: s2) = UB.
Proof.
  intros L. cbv zeta. destruct m as [|[|m]]; [| |lia];
    (eexists [FOut 0 0; FOut 0 0; FOut 0 0], _, _; split; [reflexivity|]; split; [intros [|k]; reflexivity|]).
  - instantiate (1 := repeat (FWork 0 0 0) 4 ++ repeat (FWork 1 0 0) 8). vm_compute. reflexivity.
  - instantiate (1 := repeat (FWork 1 0 0) 4 ++ repeat (FWork 0 0 0) 8). vm_compute. reflexivity.
Qed.

(** A stage feeding two workers of a pool with every item, the pool feeding a stage that
    pushes back into itself; destroyed in this order. *)
Definition C115_nodes : list kind := [Stage; Pool 8; Stage].
Definition C115_B (m : nat) : nat := 8.
Definition C115_func (log : list fev) (m : nat) (v : Z) : list (nat * Z) :=
  match m with
  | 0%nat => [(1%nat, v); (1%nat, v + 1)]
  | 1%nat => [(2%nat, 10 * v)]
  | _ => if 100 <? v then [(2%nat, v - 100)] else []
  end.
Definition C115_progs (k : nat) : list (nat * Z) :=
  match k with 0%nat => [(0%nat, 5); (0%nat, 20)] | 1%nat => [(2%nat, 7)] | _ => [] end.
Definition C115_sched : list fagent :=
  repeat (FOut 0 0) 4 ++ [FWork 0 0 3; FWork 0 0 3; FOut 1 0; FOut 1 0] ++ repeat (FOut 0 0) 2 ++ [FOut 1 0] ++
  repeat (FWork 0 0 3) 12 ++ repeat (FWork 1 3 0) 9 ++ repeat (FWork 0 0 6) 20 ++
  [FDestroy 0] ++ repeat (FWork 0 0 6) 12 ++ repeat (FWork 2 0 0) 30 ++
  [FDestroy 1] ++ flat_map (fun n => repeat (FWork 1 n 0) 45) (seq 0 8) ++ repeat (FWork 2 0 0) 20 ++
  [FDestroy 2] ++ repeat (FWork 2 0 0) 60.
Example C115_ex_sound :
  sound_sizes C115_nodes /\ whole C115_nodes /\ (forall log m v, within C115_nodes (C115_func log m v)) /\
  (forall k, within C115_nodes (C115_progs k)) /\ (forall k, (2 <= k)%nat -> C115_progs k = []) /\
  (forall k, feeds C115_func k k -> kind_of C115_nodes k = Stage).
Proof.
  repeat split.
  - intros n [H|[H|[H|[]]]]; inversion H; lia.
  - intros k [<-|[<-|[<-|[]]]]; auto.
  - intros log m v a x H. cbn. destruct m as [|[|m]]; cbn in H; [| |destruct (100 <? v); [|destruct H]];
      repeat (destruct H as [H|H]; [injection H as <- _; lia|]); destruct H.
  - intros [|[|k]] a x H; cbn in *; repeat (destruct H as [H|H]; [injection H as <- _; lia|]); destruct H.
  - intros [|[|k]] L; [lia|lia|reflexivity].
  - intros k (log & v & x & H). destruct k as [|[|[|k]]]; cbn in *; [reflexivity| |reflexivity|].
    + destruct H as [H|[]]. discriminate.
    + destruct k; reflexivity.
Qed.
Example C115_ex_order : feeders_first C115_nodes C115_B C115_func (fstart C115_B C115_progs) C115_sched.
Proof.
  apply (checkb_ok C115_nodes C115_B C115_func 2%nat (fun k m => match k with 0%nat => (m =? 1)%nat | _ => (m =? 2)%nat end)).
  - intros k m (log & v & x & H). destruct k as [|[|k]]; cbn in H; [| |destruct (100 <? v); [|destruct H]];
      repeat (destruct H as [H|H]; [injection H as <- _; reflexivity|]); destruct H.
  - apply rest_idle_start. intros [|[|k]] L; [lia|lia|reflexivity].
  - vm_compute. reflexivity.
Qed.
Example C115_ex_run :
  match frun C115_nodes C115_B C115_func (fstart C115_B C115_progs) C115_sched with
  | Ok w => overb C115_nodes 2%nat w = true /\ called 0 (f_log w) = [5; 20] /\ called 1 (f_log w) = [5; 6; 20; 21] /\
            called_by 1 3 (f_log w) = [5; 6] /\ called_by 1 6 (f_log w) = [20; 21] /\
            called 2 (f_log w) = [7; 50; 60; 200; 210; 100; 110; 10] /\ in_queue 2 0 (f_log w) = [7; 50; 60; 200; 210; 100; 110; 10]
  | _ => False
  end.
Proof. vm_compute. repeat split; reflexivity. Qed.
(** Hypotheses of C115_destructors_return: the pool, after [FDestroy 1]. *)
Example C115_ex_returns :
  let s := firstn 96 C115_sched in let s' := skipn 96 C115_sched in
  In (FDestroy 1) s /\ ~ feeds C115_func 1 1 /\ (forall log v, (length (C115_func log 1 v) <= 1)%nat) /\
  match frun C115_nodes C115_B C115_func (fstart C115_B C115_progs) s with
  | Ok w => gone C115_nodes w 1 = false /\ pending w 1 6 = 2%nat /\
            forall n, (n < 8)%nat -> ((pending w 1 n + 1) * (5 + 3 * 1) <= turns 1 n s')%nat
  | _ => False
  end.
Proof.
  cbv zeta. split; [|split; [|split]].
  - vm_compute. tauto.
  - intros (log & v & x & [H|[]]). discriminate.
  - intros. cbn. lia.
  - destruct (frun _ _ _ _ _) as [w| |] eqn:E; [|exfalso; revert E; vm_compute; discriminate|exfalso; revert E; vm_compute; discriminate].
    assert (EO : match frun C115_nodes C115_B C115_func (fstart C115_B C115_progs) (firstn 96 C115_sched) with
                 | Ok x => gone C115_nodes x 1 = false /\ pending x 1 6 = 2%nat /\
                     forallb (fun n => ((pending x 1 n + 1) * (5 + 3 * 1) <=? turns 1 n (skipn 96 C115_sched))%nat) (seq 0 8) = true
                 | _ => False end) by (vm_compute; repeat split; reflexivity).
    rewrite E in EO. destruct EO as (E1 & E2 & E3). split; [exact E1|split; [exact E2|]]. intros n L.
    rewrite forallb_forall in E3. apply Nat.leb_le, E3, in_seq. lia.
Qed.
(** The first stage is pushed into by one thread only. *)
Example C115_ex_one_feeder : only_source C115_nodes C115_func C115_progs 0 (Outsider 0).
Proof.
  split.
  - intros [|[|k]] N; [congruence|reflexivity|reflexivity].
  - intros a b _ (log & v & x & H). destruct a as [|[|a]]; cbn in H; [| |destruct (100 <? v); [|destruct H]];
      repeat (destruct H as [H|H]; [discriminate|]); destruct H.
Qed.

Print Assumptions C115_never_undefined.
Print Assumptions C115_calls.
Print Assumptions C115_sent_in_order.
Print Assumptions C115_queues_in_order.
Print Assumptions C115_one_feeder_in_order.
Print Assumptions C115_exactly_once.
Print Assumptions C115_destructors_return.
Print Assumptions C115_pool_feeds_itself_refuted.
Print Assumptions C115_cycle_refuted.
