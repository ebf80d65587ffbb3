(** Properties C73-C77, C84, C85: interval_event.hpp. *)
From Verif Require Import IntervalProofs3.

(** C73.  Any number of threads, any schedule, also with callbacks that call stop(). *)
Theorem C73_no_call_after_stop p n s newer i older e :
  reachable p n s -> log s = newer ++ EReturn i :: older -> In e newer -> is_call e = false.
Proof.
  intros R E H. pose proof (i_after _ (reach_inv _ _ _ R) _ _ _ E) as C. unfold count_calls in C.
  destruct (is_call e) eqn:EC; [|reflexivity]. exfalso.
  assert (I : In e (filter is_call newer)) by (apply filter_In; auto).
  destruct (filter is_call newer); [exact I|discriminate].
Qed.
(** Nor is one in progress: the worker has left its loop. *)
Theorem C73_worker_out_of_loop p n s i :
  reachable p n s -> In (EReturn i) (log s) -> worker s = WNotify \/ worker s = WDone.
Proof. intros R H. apply (i_return _ (reach_inv _ _ _ R) i H). Qed.
Example C73_example :
  let s := run (init 100 1) [LInit; LWorker 0 0; LWorker 0 0; LWorker 500 0; LStop 0 false; LCaller 0; LWorker 500 0;
                             LCaller 0; LWorker 500 0; LWorker 500 0; LWorker 500 0; LWorker 500 0; LCaller 0; LCaller 0] in
  match s with Ok s => log s = [EReturn 0; ECall 500 100; EClear 0; ECheck 500 100 true; EStart 0] | _ => False end.
Proof. vm_compute. reflexivity. Qed.

(** C85. *)
Theorem C85_at_most_one_more_call p n s newer i older :
  reachable p n s -> log s = newer ++ EClear i :: older -> (count_calls newer <= 1)%nat.
Proof. intros R E. apply (i_clear _ (reach_inv _ _ _ R) _ _ _ E). Qed.
(** stop() before the worker's first look at the flag: no call at all. *)
Theorem C85_stop_before_start p n s newer i older :
  reachable p n s -> log s = newer ++ EClear i :: older -> start_of older = None -> count_calls (log s) = 0%nat.
Proof.
  (* a call is preceded by a check made after the flag was seen set *)
  intros R E SO.
  assert (G : forall s, reachable p n s -> forall newer older, log s = newer ++ EClear i :: older -> start_of older = None ->
     count_calls (log s) = 0%nat /\ (worker s = WStart \/ gone (worker s) \/ (worker s = WTest /\ flag s = false))).
  { clear s newer older R E SO. intros s (ls & R).
    assert (H : (reachable p n s) /\ forall newer older, log s = newer ++ EClear i :: older -> start_of older = None ->
       count_calls (log s) = 0%nat /\ (worker s = WStart \/ gone (worker s) \/ (worker s = WTest /\ flag s = false))); [|apply H].
    refine (run_ind (fun s => reachable p n s /\ forall newer older, log s = newer ++ EClear i :: older -> start_of older = None ->
       count_calls (log s) = 0%nat /\ (worker s = WStart \/ gone (worker s) \/ (worker s = WTest /\ flag s = false))) _ ls (init p n) s _ R).
    2:{ split; [exists []; reflexivity|]. intros [|? ?] ? H; discriminate. }
    clear s ls R. intros s l s' (R & IH) E. split.
    { eapply reach_run; [exact R|]. instantiate (1 := [l]). cbn. rewrite E. reflexivity. }
    pose proof (reach_inv _ _ _ R) as V. pose proof (reach_tinv _ _ _ R) as T.
    assert (IH0 : forall newer older, log s = newer ++ EClear i :: older -> start_of older = None ->
       count_calls (log s) = 0%nat /\ (worker s = WStart \/ gone (worker s) \/ (worker s = WTest /\ flag s = false))) by exact IH.
    intros newer older EL SO.
    assert (KEEP : log s' = log s -> (worker s' = worker s \/ gone (worker s') \/ (worker s' = WTest /\ flag s' = false)) ->
                   (flag s = false -> flag s' = false \/ worker s' <> WTest) ->
                   count_calls (log s') = 0%nat /\ (worker s' = WStart \/ gone (worker s') \/ (worker s' = WTest /\ flag s' = false))).
    { intros L W F. rewrite L in *. destruct (IH0 _ _ EL SO) as (C & D). split; [exact C|].
      destruct W as [W|W]; [|right; exact W]. rewrite W in *. destruct D as [D|[D|(D1 & D2)]]; auto. destruct (F D2); auto. congruence. }
    assert (NOTE : forall e, is_call e = false -> (forall j, e <> EClear j) -> log s' = e :: log s -> worker s' = worker s -> flag s' = flag s ->
                   count_calls (log s') = 0%nat /\ (worker s' = WStart \/ gone (worker s') \/ (worker s' = WTest /\ flag s' = false))).
    { intros e C NE L W F. rewrite L in EL. apply cons_split in EL. destruct EL as [(_ & X & _)|(l1 & _ & X)]; [exfalso; eapply NE, X|].
      destruct (IH0 _ _ X SO) as (C' & D). rewrite L, W, F. unfold count_calls in *. cbn [filter]. rewrite C. auto. }
    destruct l as [|now who| |j d|j|j|q]; cbn [step] in E.
    - destruct (initd s); [discriminate|]. inversion E; subst s'. apply KEEP; cbn; auto.
    - unfold wstep in E. destruct (worker s) eqn:W;
        try (destruct (alive s); [|discriminate]); try (destruct (initd s); [|discriminate]); cbn [andb] in E; try discriminate;
        try (destruct (flag s) eqn:F; [|discriminate]); inversion E; subst s'; clear E.
      + cbn in EL. apply cons_split in EL. destruct EL as [(_ & X & _)|(l1 & _ & X)]; [discriminate|].
        destruct (IH0 _ _ X SO) as (C & _). cbn. split; [exact C|]. right. right. split; [reflexivity|].
        destruct (i_clear _ V _ _ _ X) as (_ & [B|B] & _); [rewrite W in B; destruct B; discriminate|exact B].
      + cbn in EL. destruct (IH0 _ _ EL SO) as (C & D). cbn. split; [exact C|]. destruct (flag s) eqn:F; [|right; left; left; reflexivity].
        unfold gone in D. intuition discriminate.
      + cbn in EL. apply cons_split in EL. destruct EL as [(_ & X & _)|(l1 & _ & X)]; [discriminate|].
        destruct (IH0 _ _ X SO) as (C & D). unfold gone in D. intuition discriminate.
      + cbn in EL. apply cons_split in EL. destruct EL as [(_ & X & _)|(l1 & _ & X)]; [discriminate|].
        destruct (IH0 _ _ X SO) as (C & D). unfold gone in D. intuition discriminate.
      + cbn in EL. destruct (IH0 _ _ EL SO) as (C & D). unfold gone in D. intuition discriminate.
      + cbn in EL. destruct (IH0 _ _ EL SO) as (C & D). unfold gone in D. intuition discriminate.
      + cbn in EL. destruct (IH0 _ _ EL SO) as (C & D). unfold gone in D. intuition discriminate.
      + cbn in EL. destruct (IH0 _ _ EL SO) as (C & D). unfold gone in D. intuition discriminate.
      + cbn in EL. destruct (IH0 _ _ EL SO) as (C & D). unfold gone in D. intuition discriminate.
      + cbn in EL. destruct (IH0 _ _ EL SO) as (C & D). cbn. split; [exact C|]. right. left. right. reflexivity.
    - destruct (worker s) eqn:W; try discriminate. destruct (alive s); [|discriminate]. inversion E; subst s'; clear E.
      assert (EL' : log s = newer ++ EClear i :: older) by (destruct (stopf s); exact EL).
      destruct (IH0 _ _ EL' SO) as (C & D). unfold gone in D. intuition discriminate.
    - destruct (nth_error (callers s) j) as [[]|]; try discriminate. destruct (initd s); [|discriminate].
      destruct (alive s); [|discriminate]. destruct (stopf s); inversion E; subst s'; clear E.
      + destruct d.
        * cbn in EL. apply cons_split in EL. destruct EL as [(_ & X & _)|(l1 & _ & X)]; [discriminate|].
          apply cons_split in X. destruct X as [(_ & X & _)|(l2 & _ & X)]; [discriminate|]. cbn. apply (IH0 _ _ X SO).
        * apply (NOTE (EReturn j)); try reflexivity; discriminate.
      + apply KEEP; cbn; auto.
    - unfold cstep in E. destruct (nth_error (callers s) j) as [[]|] eqn:N; try discriminate; (destruct (alive s); [|discriminate]); inversion E; subst s'; clear E.
      + cbn in EL. apply cons_split in EL. destruct EL as [(_ & X & Y)|(l1 & _ & X)].
        * inversion X; subst j older. cbn. destruct T as (TA & TB & _).
          destruct (worker s) eqn:W; try (destruct TB as (t0 & TB & _); [congruence|]; congruence).
          destruct (TA eq_refl) as (_ & TC & _). split; [|left; reflexivity].
          assert (Z : forall l, call_times l = [] -> count_calls l = 0%nat).
          { clear. induction l as [|e l IH]; [reflexivity|]. unfold count_calls in *. destruct e; cbn; try exact IH. destruct (call_times l); discriminate. }
          exact (Z _ TC).
        * cbn. destruct (IH0 _ _ X SO) as (C & D). split; [exact C|]. tauto.
      + apply KEEP; cbn; auto.
      + destruct d.
        * cbn in EL. apply cons_split in EL. destruct EL as [(_ & X & _)|(l1 & _ & X)]; [discriminate|].
          apply cons_split in X. destruct X as [(_ & X & _)|(l2 & _ & X)]; [discriminate|]. cbn. apply (IH0 _ _ X SO).
        * apply (NOTE (EReturn j)); try reflexivity; discriminate.
    - destruct (nth_error (callers s) j) as [[]|]; try discriminate. inversion E; subst s'; clear E. apply KEEP; cbn; auto.
    - destruct (initd s); [|discriminate]. destruct (alive s); [|discriminate]. inversion E; subst s'; clear E. apply (NOTE (EPeriod q)); try reflexivity; discriminate. }
  destruct (G s R _ _ E SO) as (C & _). exact C.
Qed.
Example C85_example :
  match run (init 100 1) [LInit; LStop 0 false; LCaller 0; LWorker 0 0; LWorker 0 0; LCaller 0; LWorker 0 0; LCaller 0] with
  | Ok s => log s = [EReturn 0; EStart 0; EClear 0] /\ worker s = WDone
  | _ => False
  end.
Proof. vm_compute. auto. Qed.

(** C74.  Times in nanoseconds, periods in milliseconds.  A check at clock reading [now] fires
    exactly when the periods of all calls so far, plus the current period *counted in
    nanoseconds*, have passed since the start; a check that fires is followed by its call before
    the next check. *)
Theorem C74_check_exact p n s now who :
  reachable p n s -> worker s = WCheck -> alive s = true -> initd s = true ->
  exists t0 s' fired, start_of (log s) = Some t0 /\ step s (LWorker now who) = Ok (Some s') /\
    log s' = ECheck now (in_force p (log s)) fired :: log s /\
    (fired = true <-> t0 + elapsed_periods (log s) + in_force p (log s) <= now).
Proof.
  intros R W A I. rewrite <- (reach_force p n s R). destruct (reach_tinv _ _ _ R) as (_ & TB & _). destruct TB as (t0 & T1 & T2); [congruence|].
  exists t0. cbn [step]. unfold wstep. rewrite W, A, I. cbn [andb]. do 2 eexists. split; [exact T1|]. split; [reflexivity|].
  split; [reflexivity|]. rewrite T2. lia.
Qed.
(** The period that counts for a check, and the one added at a call, is the one last set. *)
Theorem C74_period_last_set p n s newer t q older :
  reachable p n s ->
  (forall fired, log s = newer ++ ECheck t q fired :: older -> q = in_force p older) /\
  (log s = newer ++ ECall t q :: older -> q = in_force p older).
Proof.
  intros R. pose proof (reach_used p n s R) as U. split; [intros fired E|intros E]; exact (U _ _ _ E).
Qed.
Theorem C74_one_call_per_fired_check p n s :
  reachable p n s -> exists pending, paired (timeline (log s)) pending /\
    (forall t, pending = Some t <-> worker s = WFire t).
Proof.
  intros R. destruct (reach_tinv _ _ _ R) as (_ & _ & P). eexists. split; [exact P|]. intros t.
  destruct (worker s); split; intros H; try discriminate; inversion H; reflexivity.
Qed.
(** No drift: with a period left alone the n-th call (from 0) is never before n periods. *)
Theorem C74_nth_call_not_early p n ls s k t :
  forallb (fun l => negb (changes_period l)) ls = true -> run (init p n) ls = Ok s ->
  nth_error (call_times (log s)) k = Some t ->
  exists t0, start_of (log s) = Some t0 /\ t0 + Z.of_nat k * (p * 1000000) + p <= t.
Proof. intros F E H. destruct (run_cinv _ _ _ _ F E) as (_ & _ & _ & C). apply C, H. Qed.
(** And a check made at or after that moment, when k calls have been made, fires. *)
Theorem C74_due_check_fires p n ls s now who t0 :
  forallb (fun l => negb (changes_period l)) ls = true -> run (init p n) ls = Ok s ->
  worker s = WCheck -> alive s = true -> initd s = true -> start_of (log s) = Some t0 ->
  let k := length (call_times (log s)) in
  exists s', step s (LWorker now who) = Ok (Some s') /\
    (worker s' = WFire now <-> t0 + Z.of_nat k * (p * 1000000) + p <= now) /\
    (worker s' = WPause <-> now < t0 + Z.of_nat k * (p * 1000000) + p).
Proof.
  intros F E W A I S k. destruct (run_cinv _ _ _ _ F E) as (C1 & C2 & _).
  destruct (reach_tinv p n s) as (_ & TB & _); [exists ls; exact E|]. destruct TB as (t1 & T1 & T2); [congruence|].
  rewrite S in T1. inversion T1; subst t1. cbn [step]. unfold wstep. rewrite W, A, I. cbn [andb]. eexists. split; [reflexivity|].
  cbn [emit set_worker worker]. rewrite T2, C2, C1. unfold ms, k in *.
  destruct (Z.leb_spec p (now - (t0 + Z.of_nat (length (call_times (log s))) * (p * 1000000)))) as [G|G].
  - split; [split; [lia|reflexivity]|]. split; [discriminate|lia].
  - split; [split; [discriminate|lia]|]. split; [lia|reflexivity].
Qed.
Example C74_example :
  match run (init 100 1) ([LInit; LWorker 1000 0; LWorker 0 0; LWorker 1100 0; LWorker 0 0; LWorker 0 0; LWorker 0 0; LWorker 0 0;
                          LWorker 100001099 0; LWorker 0 0; LWorker 0 0; LWorker 100001100 0; LWorker 0 0]) with
  | Ok s => log s = [ECall 100001100 100; ECheck 100001100 100 true; ECheck 100001099 100 false; ECall 1100 100; ECheck 1100 100 true; EStart 1000]
  | _ => False
  end.
Proof. vm_compute. reflexivity. Qed.

(** C75.  Any number of threads call stop() (or the destructor), in turn; the callback does not
    call stop() and, as any worker step, is given its turn to return.  Ten rounds in which worker
    and caller each get a turn are enough for stop() to return; no schedule of the two takes more
    than ten steps, or an undefined one, while it has not returned. *)
Theorem C75_stop_returns p n ls s i rounds :
  forallb (fun l => negb (callback_stops l)) ls = true -> stops_in_turn (init p n) ls ->
  run (init p n) ls = Ok s -> in_stop s i ->
  Forall (fair_round i) rounds -> length rounds = 10%nat ->
  exists l1 l2 s', concat rounds = l1 ++ l2 /\ run s l1 = Ok s' /\ hd_error (log s') = Some (EReturn i).
Proof. apply turn_rounds. Qed.
Theorem C75_stop_is_bounded p n ls s i ls' :
  forallb (fun l => negb (callback_stops l)) ls = true -> stops_in_turn (init p n) ls ->
  run (init p n) ls = Ok s -> in_stop s i -> forallb (works_for i) ls' = true ->
  (exists l1 l2 s', ls' = l1 ++ l2 /\ run s l1 = Ok s' /\ hd_error (log s') = Some (EReturn i)) \/
  (exists s', run s ls' = Ok s' /\ (steps_taken s ls' <= 10)%nat /\ exists l, works_for i l = true /\ enabled s' l).
Proof. apply turn_bounded. Qed.
Example C75_example :
  let ls := [LInit; LWorker 0 0; LWorker 0 0; LStop 2 true; LCaller 2; LCaller 0; LStop 2 false] in
  let rounds := repeat [LWorker 500 0; LCaller 2] 10 in
  stops_in_turn (init 100 3) ls /\ Forall (fair_round 2) rounds /\
  match run (init 100 3) ls with
  | Ok s => in_stop s 2 /\ match run s (firstn 15 (concat rounds)) with Ok s' => hd_error (log s') = Some (EReturn 2) | _ => False end
  | _ => False
  end.
Proof.
  split; [|split].
  - cbn. repeat (split; [try discriminate|]); try exact I;
      intros i d H j c N E; inversion H; subst; destruct j as [|[|[|j]]]; cbn in E; try congruence; destruct j; discriminate.
  - apply Forall_forall. intros r H. apply repeat_spec in H. subst r. split; [reflexivity|]. split; [right; left; reflexivity|].
    exists 500, 0%nat. left. reflexivity.
  - vm_compute. split; [exists true; auto|reflexivity].
Qed.

(** C76.  Once the callback has called stop(), it never comes back, and neither does any other
    stop(), on any continuation. *)
Theorem C76_stop_in_callback_refuted p n s :
  reachable p n s -> worker s = WCall ->
  exists s1, run s [LCbStop; LWorker 0 0] = Ok s1 /\ worker s1 = WCbWait /\
    forall ls s2, run s1 ls = Ok s2 -> worker s2 = WCbWait /\ forall i, ~ In (EReturn i) (log s2).
Proof.
  intros R W. pose proof (reach_inv _ _ _ R) as V.
  assert (A : alive s = true) by (destruct (alive s) eqn:A; [reflexivity|]; pose proof (i_alive _ V A) as G; rewrite W in G; destruct G; discriminate).
  assert (S : stopf s = false) by (destruct (stopf s) eqn:S; [|reflexivity]; pose proof (i_stop _ V S) as G; rewrite W in G; destruct G; discriminate).
  eexists. split.
  { cbn [run step]. rewrite W, A, S. cbn [wstep set_worker worker alive]. rewrite A. reflexivity. }
  split; [reflexivity|]. set (s1 := set_flag _ _).
  assert (R1 : reachable p n s1).
  { eapply reach_run; [exact R|]. instantiate (1 := [LCbStop; LWorker 0 0]). cbn [run step]. rewrite W, A, S. cbn [wstep set_worker worker alive]. rewrite A. reflexivity. }
  intros ls s2 E.
  assert (G : reachable p n s2 /\ worker s2 = WCbWait).
  { refine (run_ind (fun s => reachable p n s /\ worker s = WCbWait) _ ls s1 s2 (conj R1 eq_refl) E).
    clear. intros s l s' (R & W) E. split; [eapply reach_run; [exact R|]; instantiate (1 := [l]); cbn; rewrite E; reflexivity|].
    pose proof (reach_inv _ _ _ R) as V. pose proof (proj1 (i_cb _ V) W) as F.
    destruct l as [|now who| |k d|k|k|q]; cbn [step] in E.
    - destruct (initd s); inversion E; subst; exact W.
    - unfold wstep in E. rewrite W, F in E. destruct (alive s); discriminate.
    - rewrite W in E. discriminate.
    - destruct (nth_error (callers s) k) as [[]|]; try discriminate. destruct (initd s); [|discriminate].
      destruct (alive s); [|discriminate]. destruct (stopf s); inversion E; subst s'; [destruct d|]; exact W.
    - unfold cstep in E. destruct (nth_error (callers s) k) as [[]|]; try discriminate; (destruct (alive s); [|discriminate]); inversion E; subst s'; try destruct d; exact W.
    - destruct (nth_error (callers s) k) as [[]|]; try discriminate. inversion E; subst; exact W.
    - destruct (initd s); [|discriminate]. destruct (alive s); [|discriminate]. inversion E; subst; exact W. }
  destruct G as (R2 & W2). split; [exact W2|]. intros i H. pose proof (i_return _ (reach_inv _ _ _ R2) i H) as Q. rewrite W2 in Q. destruct Q; discriminate.
Qed.
Example C76_example :
  match run (init 100 1) [LInit; LWorker 0 0; LWorker 0 0; LWorker 500 0; LWorker 0 0] with
  | Ok s => worker s = WCall | _ => False end.
Proof. vm_compute. reflexivity. Qed.

(** C77.  The worker's accesses are safe in every reachable state but two: the final notify_one
    on an object already destroyed, and reading the periods before the constructor has set them. *)
Theorem C77_only_unsafe_accesses p n s now who :
  reachable p n s -> step s (LWorker now who) = UB ->
  (worker s = WNotify /\ alive s = false) \/ ((worker s = WCheck \/ worker s = WPause) /\ initd s = false).
Proof.
  intros R E. pose proof (reach_inv _ _ _ R) as V. cbn [step] in E. unfold wstep in E.
  destruct (alive s) eqn:A.
  - destruct (worker s); try discriminate; [|destruct (flag s); discriminate|]; destruct (initd s) eqn:I; try discriminate; right; auto.
  - pose proof (i_alive _ V A) as G. destruct (worker s); destruct G; try discriminate. left. auto.
Qed.
Theorem C77_notify_after_destruction_refuted p :
  exists s, reachable p 1 s /\ In EDestroyed (log s) /\ forall now who, step s (LWorker now who) = UB.
Proof.
  eexists. split; [|split].
  - exists [LInit; LStop 0 true; LCaller 0; LWorker 0 0; LWorker 0 0; LCaller 0; LCaller 0]. vm_compute. reflexivity.
  - right. left. reflexivity.
  - intros now who. reflexivity.
Qed.
Theorem C77_period_read_uninitialised_refuted p :
  exists s, reachable p 1 s /\ initd s = false /\ forall now who, step s (LWorker now who) = UB.
Proof.
  eexists. split; [|split].
  - exists [LWorker 0 0; LWorker 0 0]. vm_compute. reflexivity.
  - reflexivity.
  - intros now who. reflexivity.
Qed.
Example C77_example :
  match run (init 100 1) [LInit; LStop 0 true; LCaller 0; LWorker 0 0; LWorker 0 0; LCaller 0; LWorker 0 0; LCaller 0] with
  | Ok s => alive s = false /\ worker s = WDone | _ => False end.
Proof. vm_compute. auto. Qed.

(** C84.  A stop() that clears the flag after the worker has left its loop waits for ever. *)
Theorem C84_late_clear_hangs_refuted p n s i :
  reachable p n s -> (worker s = WNotify \/ worker s = WDone) -> flag s = false ->
  (exists d, nth_error (callers s) i = Some (CWait d) \/ nth_error (callers s) i = Some (CBlocked d)) ->
  forall ls s', run s ls = Ok s' ->
  exists d, nth_error (callers s') i = Some (CWait d) \/ nth_error (callers s') i = Some (CBlocked d).
Proof.
  intros R G F C ls s' E.
  assert (PA : forall l k x c, nth_error l k = Some x -> nth_error (put_at l k c) k = Some c).
  { induction l as [|y l IH]; intros [|k] x c; cbn; try discriminate; auto. apply IH. }
  assert (PO : forall l k j c, j <> k -> nth_error (put_at l k c) j = nth_error l j).
  { induction l as [|y l IH]; intros [|k] [|j] c N; cbn; try reflexivity; try congruence. apply IH. congruence. }
  assert (WF : forall l j d, nth_error l j = Some (CWait d) \/ nth_error l j = Some (CBlocked d) ->
               nth_error (wake_first l) j = Some (CWait d) \/ nth_error (wake_first l) j = Some (CBlocked d)).
  { induction l as [|y l IH]; intros [|j] d H; cbn in *; auto; destruct y; cbn; auto. destruct H as [H|H]; inversion H; auto. }
  assert (Q : gone (worker s') /\ flag s' = false /\ exists d, nth_error (callers s') i = Some (CWait d) \/ nth_error (callers s') i = Some (CBlocked d)).
  { refine (run_ind (fun s => gone (worker s) /\ flag s = false /\ exists d, nth_error (callers s) i = Some (CWait d) \/ nth_error (callers s) i = Some (CBlocked d)) _ ls s s' (conj G (conj F C)) E).
    clear - PA PO WF. intros s l s' (G & F & d & C) E.
    assert (KEEP : forall k x c, nth_error (callers s) k = Some x -> (forall e, x <> CWait e) -> (forall e, x <> CBlocked e) ->
              exists d, nth_error (put_at (callers s) k c) i = Some (CWait d) \/ nth_error (put_at (callers s) k c) i = Some (CBlocked d)).
    { intros k x c N N1 N2. destruct (Nat.eq_dec i k) as [->|NE]; [|rewrite PO by exact NE; exists d; exact C].
      exfalso. destruct C as [C|C]; rewrite C in N; inversion N; subst x; [apply (N1 d)|apply (N2 d)]; reflexivity. }
    destruct l as [|now who| |k e|k|k|q]; cbn [step] in E.
    - destruct (initd s); inversion E; subst; split; [exact G|]. split; [exact F|]. exists d. exact C.
    - unfold wstep in E. destruct (worker s) eqn:W; destruct G; try discriminate. destruct (alive s); [|discriminate]. inversion E; subst s'. cbn.
      split; [right; reflexivity|]. split; [exact F|]. exists d. unfold notify.
      destruct (nth_error (callers s) who) as [c|] eqn:N; [|apply WF, C]. destruct c; try apply WF, C.
      destruct (Nat.eq_dec i who) as [->|NE]; [|rewrite PO by exact NE; exact C]. left. rewrite (PA _ _ _ _ N). destruct C as [C|C]; rewrite C in N; inversion N; reflexivity.
    - destruct (worker s) eqn:W; destruct G; discriminate.
    - destruct (nth_error (callers s) k) as [c|] eqn:N; [|discriminate]. destruct c; try discriminate. destruct (initd s); [|discriminate].
      destruct (alive s); [|discriminate]. destruct (stopf s); inversion E; subst s'.
      + destruct e; (split; [exact G|]); (split; [exact F|]); exists d; exact C.
      + split; [exact G|]. split; [exact F|]. cbn. apply (KEEP _ _ _ N); discriminate.
    - unfold cstep in E. destruct (nth_error (callers s) k) as [c|] eqn:N; [|discriminate]. destruct c as [|e|e|e|e]; try discriminate; (destruct (alive s); [|discriminate]); inversion E; subst s'.
      + cbn. split; [exact G|]. split; [reflexivity|]. apply (KEEP _ _ _ N); discriminate.
      + rewrite F. cbn. split; [exact G|]. split; [exact F|]. destruct (Nat.eq_dec i k) as [->|NE]; [exists e; right; apply (PA _ _ _ _ N)|rewrite PO by exact NE; exists d; exact C].
      + destruct e; cbn; (split; [exact G|]); (split; [exact F|]); apply (KEEP _ _ _ N); discriminate.
    - destruct (nth_error (callers s) k) as [c|] eqn:N; [|discriminate]. destruct c as [|e|e|e|e]; try discriminate. inversion E; subst s'. cbn.
      split; [exact G|]. split; [exact F|]. destruct (Nat.eq_dec i k) as [->|NE]; [exists e; left; apply (PA _ _ _ _ N)|rewrite PO by exact NE; exists d; exact C].
    - destruct (initd s); [|discriminate]. destruct (alive s); [|discriminate]. inversion E; subst s'. split; [exact G|]. split; [exact F|]. exists d. exact C. }
  apply Q.
Qed.
(** Two overlapping calls are enough to block both of them. *)
Theorem C84_two_stops_refuted p :
  exists s, reachable p 2 s /\ (worker s = WNotify \/ worker s = WDone) /\ flag s = false /\
    callers s = [CBlocked false; CBlocked false].
Proof.
  eexists. split.
  - exists [LInit; LStop 0 false; LStop 1 false; LCaller 0; LCaller 0; LWorker 0 0; LWorker 0 0; LCaller 1; LWorker 0 0; LCaller 0; LCaller 1].
    vm_compute. reflexivity.
  - cbn. auto.
Qed.
(** One after the other they are fine: a stop() that starts after another has returned returns at once. *)
Theorem C84_sequential_stops p n s i j :
  reachable p n s -> In (EReturn i) (log s) -> alive s = true -> nth_error (callers s) j = Some CIdle ->
  exists s', step s (LStop j false) = Ok (Some s') /\ hd_error (log s') = Some (EReturn j).
Proof.
  intros R H A C.
  destruct (returned_stopf p n s R (ex_intro _ i H)) as (S & I). cbn [step]. rewrite C, I, A, S. eexists. split; reflexivity.
Qed.
Example C84_example :
  match run (init 100 2) [LInit; LStop 0 false; LCaller 0; LWorker 0 0; LWorker 0 0; LCaller 0; LWorker 0 0; LCaller 0; LStop 1 false] with
  | Ok s => log s = [EReturn 1; EReturn 0; EStart 0; EClear 0] | _ => False end.
Proof. vm_compute. reflexivity. Qed.

(** C100.  Neither setting is atomic.  Until some stop() has cleared the flag, the worker, left
    alone, comes within six steps to a read of either setting that nothing orders against a
    setter call made then; once a stop() has returned it never reads one again. *)
Theorem C100_setters_race_refuted p n ls s m now :
  forallb (fun l => negb (callback_stops l)) ls = true -> run (init p n) ls = Ok s ->
  alive s = true -> initd s = true -> (forall i, ~ In (EClear i) (log s)) ->
  exists k s', (k <= 6)%nat /\ run s (repeat (LWorker now 0) k) = Ok s' /\ about_to_read s' m /\
    forall q, enabled s' (LPeriod q).
Proof.
  intros F E A I NC. destruct (run_unstopped p n ls s F E NC) as (FL & G & C).
  destruct (comes_to_read s m now FL G C A I) as (k & s' & L & R & AB & A' & I').
  exists k, s'. split; [exact L|]. split; [exact R|]. split; [exact AB|]. intros q. cbv [enabled step]. rewrite A', I'. eauto.
Qed.
Theorem C100_setters_safe_after_stop p n s i ls s' m :
  reachable p n s -> In (EReturn i) (log s) -> run s ls = Ok s' -> ~ about_to_read s' m.
Proof.
  intros R H E. assert (R' : reachable p n s') by (eapply reach_run; eassumption).
  assert (H' : In (EReturn i) (log s')).
  { refine (run_ind (fun x => In (EReturn i) (log x)) _ ls s s' H E). clear. intros s l s' H E.
    destruct l as [|now who| |k d|k|k|q]; cbn [step] in E; unfold wstep, cstep in E;
      repeat match type of E with context [match ?b with _ => _ end] => destruct b end; try discriminate; inversion E; subst s';
      cbn; auto. }
  pose proof (i_return _ (reach_inv _ _ _ R') i H') as [G|G]; destruct m; cbn; rewrite G; [intros [Q|(t & Q)]| |intros [Q|(t & Q)]|]; discriminate.
Qed.
Example C100_example :
  match run (init 100 1) [LInit; LWorker 0 0; LPeriod 50; LWorker 0 0] with
  | Ok s => about_to_read s Period /\ log s = [EPeriod 50; EStart 0] | _ => False end.
Proof. vm_compute. auto. Qed.

Print Assumptions C73_no_call_after_stop.
Print Assumptions C73_worker_out_of_loop.
Print Assumptions C85_at_most_one_more_call.
Print Assumptions C85_stop_before_start.
Print Assumptions C74_check_exact.
Print Assumptions C74_period_last_set.
Print Assumptions C74_one_call_per_fired_check.
Print Assumptions C74_nth_call_not_early.
Print Assumptions C74_due_check_fires.
Print Assumptions C75_stop_returns.
Print Assumptions C75_stop_is_bounded.
Print Assumptions C76_stop_in_callback_refuted.
Print Assumptions C77_only_unsafe_accesses.
Print Assumptions C77_notify_after_destruction_refuted.
Print Assumptions C77_period_read_uninitialised_refuted.
Print Assumptions C84_late_clear_hangs_refuted.
Print Assumptions C84_two_stops_refuted.
Print Assumptions C84_sequential_stops.
Print Assumptions C100_setters_race_refuted.
Print Assumptions C100_setters_safe_after_stop.
