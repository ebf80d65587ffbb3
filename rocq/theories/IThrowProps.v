(** Timers whose function throws. *)
From Verif Require Import IThrowProofs IntervalProps.
From Verif Require Export IThrowSpec.

(** ** C143 *)

(** Nothing is different until the function throws, and nothing happens after. *)
Theorem C143_goes_on thr past s ls s' :
  irun thr past s ls = IRun s' <->
  run s ls = Ok s' /\
  forall l1 now who l2 s1, ls = l1 ++ LWorker now who :: l2 -> run s l1 = Ok s1 -> worker s1 = WCall -> thr (past ++ l1) = false.
Proof. apply irun_iff. Qed.
Theorem C143_ends thr past s ls s' :
  irun thr past s ls = IDead s' <->
  exists l1 now who l2, ls = l1 ++ LWorker now who :: l2 /\ irun thr past s l1 = IRun s' /\ worker s' = WCall /\ thr (past ++ l1) = true.
Proof. apply idead_iff. Qed.
(** When the exception ends the program no stop() and no destructor has returned: one that has
    begun never does, and once one has returned the program cannot end this way. *)
Theorem C143_stop_has_not_returned thr p n ls s i :
  irun thr [] (init p n) ls = IDead s -> ~ In (EReturn i) (log s).
Proof.
  intros D H. apply idead_iff in D. destruct D as (l1 & now & who & l2 & _ & R & W & _). apply irun_run in R.
  destruct (C73_worker_out_of_loop p n s i) as [E|E]; [exists l1; exact R|exact H| |]; congruence.
Qed.
Theorem C143_safe_after_stop thr p n ls more s s' i :
  irun thr [] (init p n) ls = IRun s -> In (EReturn i) (log s) -> irun thr [] (init p n) (ls ++ more) <> IDead s'.
Proof.
  intros R H D. apply idead_iff in D. destruct D as (l1 & now & who & l2 & E & R1 & W & X).
  destruct (app_cases _ _ _ _ _ E) as [E1|E1].
  - destruct E1 as (l3 & ->). pose proof R1 as R2. rewrite (irun_app thr ls [] _ _ _ R) in R2. apply irun_run in R2. apply irun_run in R1.
    destruct (C73_worker_out_of_loop p n s' i) as [Q|Q]; [exists (ls ++ l3); exact R1| | |]; try congruence.
    eapply log_grows; eassumption.
  - destruct E1 as (l3 & ->). assert (irun thr [] (init p n) (l1 ++ LWorker now who :: l3) = IDead s') by (apply idead_iff; eauto 8). congruence.
Qed.
(** A function that always throws is called once at most; while the program goes on after that
    call the function has not been left, and no stop() and no destructor has returned. *)
Theorem C143_first_call_is_last thr p n ls s :
  (forall past, thr past = true) -> irun thr [] (init p n) ls = IRun s ->
  (count_calls (log s) <= 1)%nat /\
  (count_calls (log s) = 1%nat <-> in_function s) /\
  (count_calls (log s) = 1%nat -> forall i, ~ In (EReturn i) (log s)).
Proof.
  intros T R. assert (F : first_only s).
  { eapply first_run; [exact T| |exact R]. left. split; [reflexivity|]. intros []. }
  assert (N : in_function s -> forall i, ~ In (EReturn i) (log s)).
  { intros I i H. apply irun_run in R. destruct (C73_worker_out_of_loop p n s i) as [Q|Q]; [exists ls; exact R|exact H| |]; unfold in_function in I; rewrite Q in I; exact I. }
  destruct F as [[C I]|[C I]]; rewrite C; (split; [lia|]); (split; [split; [|intros; try reflexivity; contradiction]; intros; try discriminate; exact I|]); intros; try discriminate; apply N, I.
Qed.

(** The first call returns, the second throws while another thread is in stop(). *)
Example C143_example :
  let thr := fun past : list label => (8 <=? length past)%nat in
  let ls := [LInit; LWorker 0 0; LWorker 0 0; LWorker 500 0; LWorker 500 0; LWorker 500 0; LWorker 500 0; LWorker 500 0;
             LWorker 100000600 0; LWorker 100000600 0; LStop 0 false; LCaller 0; LWorker 100000600 0; LCaller 0] in
  match irun thr [] (init 100 1) ls, irun (fun _ => true) [] (init 100 1) ls, irun (fun _ => false) [] (init 100 1) ls with
  | IDead a, IDead b, IRun c => count_calls (log a) = 2%nat /\ count_calls (log b) = 1%nat /\ count_calls (log c) = 2%nat /\
      hd_error (log a) = Some (EClear 0) /\ callers a = [CWait false]
  | _, _, _ => False
  end.
Proof. vm_compute. auto 8. Qed.

(** After stop() has returned the same timer goes on whatever the function would do. *)
Example C143_example_stopped :
  match irun (fun _ => true) [] (init 100 1) [LInit; LStop 0 false; LCaller 0; LWorker 0 0; LWorker 0 0; LCaller 0; LWorker 0 0; LCaller 0] with
  | IRun s => In (EReturn 0) (log s)
  | _ => False
  end.
Proof. vm_compute. auto. Qed.

Print Assumptions C143_goes_on.
Print Assumptions C143_ends.
Print Assumptions C143_stop_has_not_returned.
Print Assumptions C143_safe_after_stop.
Print Assumptions C143_first_call_is_last.
