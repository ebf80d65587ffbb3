(** Timers whose function throws. *)
From Verif Require Export IThrowSpec IntervalProofs.

Section P.
  Variable thr : list label -> bool.
  Notation irun := (irun thr).
  Notation leaves := (leaves_by_throw thr).

  Lemma leaves_spec past s l : leaves past s l = true <-> exists now who, l = LWorker now who /\ worker s = WCall /\ thr past = true.
  Proof.
    split.
    - destruct l; cbn; try discriminate. destruct (worker s) eqn:W; try discriminate. intros H. eauto 6.
    - intros (now & who & -> & W & H). cbn. rewrite W. exact H.
  Qed.
  (** One step, or none when the label is not enabled. *)
  Definition moved (s : st) (l : label) (s' : st) : Prop := step s l = Ok (Some s') \/ (step s l = Ok None /\ s' = s).
  Lemma run_cons s l ls s' : run s (l :: ls) = Ok s' <-> exists s1, moved s l s1 /\ run s1 ls = Ok s'.
  Proof.
    cbn [run]. unfold moved. split.
    - destruct (step s l) as [[s1|]| |]; try discriminate; intros R; eauto 6.
    - intros (s1 & [E|[E ->]] & R); rewrite E; exact R.
  Qed.
  Lemma irun_cons past s l ls r : irun past s (l :: ls) = r -> r <> IUndef -> leaves past s l = false ->
    exists s1, moved s l s1 /\ irun (past ++ [l]) s1 ls = r.
  Proof.
    cbn [IThrowModel.irun]. intros E N L. rewrite L in E.
    unfold moved. destruct (step s l) as [[s1|]| |]; try congruence; eauto 6.
  Qed.
  Lemma irun_moved past s l ls s1 : leaves past s l = false -> moved s l s1 -> irun past s (l :: ls) = irun (past ++ [l]) s1 ls.
  Proof. intros L M. cbn [IThrowModel.irun]. rewrite L. destruct M as [E|[E ->]]; rewrite E; reflexivity. Qed.
  Lemma moved_fun s l s1 s2 : moved s l s1 -> moved s l s2 -> s1 = s2.
  Proof. unfold moved. intros [A|[A ->]] [C|[C ->]]; congruence. Qed.

  Lemma irun_app l1 : forall past s s1 l2, irun past s l1 = IRun s1 -> irun past s (l1 ++ l2) = irun (past ++ l1) s1 l2.
  Proof.
    induction l1 as [|l l1 IH]; intros past s s1 l2 H; [cbn in H; injection H as ->; rewrite app_nil_r; reflexivity|].
    cbn [app]. destruct (leaves past s l) eqn:L; [cbn in H; rewrite L in H; discriminate|].
    destruct (irun_cons past s l l1 _ H ltac:(discriminate) L) as (s2 & M & H2). rewrite (irun_moved past s l _ s2 L M), (IH _ _ _ _ H2), <- app_assoc. reflexivity.
  Qed.
  Lemma irun_run ls : forall past s s', irun past s ls = IRun s' -> run s ls = Ok s'.
  Proof.
    induction ls as [|l ls IH]; intros past s s' H; [cbn in H; injection H as ->; reflexivity|].
    destruct (leaves past s l) eqn:L; [cbn in H; rewrite L in H; discriminate|].
    destruct (irun_cons past s l ls _ H ltac:(discriminate) L) as (s2 & M & H2). apply run_cons. exists s2. split; [exact M|]. eapply IH, H2.
  Qed.
  Lemma irun_iff ls : forall past s s', irun past s ls = IRun s' <->
    run s ls = Ok s' /\ forall l1 now who l2 s1, ls = l1 ++ LWorker now who :: l2 -> run s l1 = Ok s1 -> worker s1 = WCall -> thr (past ++ l1) = false.
  Proof.
    induction ls as [|l ls IH]; intros past s s'.
    - cbn. split; [intros [= ->]; split; [reflexivity|]; intros [|] ? ? ? ?; discriminate|]. intros [[= ->] _]. reflexivity.
    - destruct (leaves past s l) eqn:L.
      + split; [cbn; rewrite L; discriminate|]. intros [_ H]. apply leaves_spec in L. destruct L as (now & who & -> & W & X).
        specialize (H [] now who ls s eq_refl eq_refl W). rewrite app_nil_r in H. congruence.
      + split.
        * intros H. split; [eapply irun_run, H|]. destruct (irun_cons past s l ls _ H ltac:(discriminate) L) as (s2 & M & H2).
          apply IH in H2. destruct H2 as [_ H2]. intros [|b l1] now who l2 s1 E P W; cbn [app] in E; injection E as E1 E2.
          -- cbn in P. injection P as <-. rewrite app_nil_r. destruct (thr past) eqn:X; [|reflexivity].
             assert (leaves past s l = true) by (apply leaves_spec; eauto 6). congruence.
          -- subst b. apply run_cons in P. destruct P as (s3 & M3 & P). rewrite <- (moved_fun _ _ _ _ M M3) in P.
             specialize (H2 l1 now who l2 s1 E2 P W). rewrite <- app_assoc in H2. exact H2.
        * intros [R H]. apply run_cons in R. destruct R as (s2 & M & R). rewrite (irun_moved past s l ls s2 L M). apply IH. split; [exact R|].
          intros l1 now who l2 s1 E P W. rewrite <- app_assoc. apply (H (l :: l1) now who l2 s1); [rewrite E; reflexivity| |exact W].
          apply run_cons. eauto.
  Qed.
  Lemma idead_iff ls past s s' : irun past s ls = IDead s' <->
    exists l1 now who l2, ls = l1 ++ LWorker now who :: l2 /\ irun past s l1 = IRun s' /\ worker s' = WCall /\ thr (past ++ l1) = true.
  Proof.
    split.
    - revert past s. induction ls as [|l ls IH]; intros past s H; [discriminate|]. destruct (leaves past s l) eqn:L.
      + cbn in H. rewrite L in H. injection H as <-. apply leaves_spec in L. destruct L as (now & who & -> & W & X).
        exists [], now, who, ls. rewrite app_nil_r. auto.
      + destruct (irun_cons past s l ls _ H ltac:(discriminate) L) as (s2 & M & H2). destruct (IH _ _ H2) as (l1 & now & who & l2 & -> & R & W & X).
        exists (l :: l1), now, who, l2. rewrite <- app_assoc in X. split; [reflexivity|]. split; [|auto]. rewrite (irun_moved past s l l1 s2 L M). exact R.
    - intros (l1 & now & who & l2 & -> & R & W & X). rewrite (irun_app _ _ _ _ _ R). cbn [IThrowModel.irun].
      replace (leaves (past ++ l1) s' (LWorker now who)) with true; [reflexivity|]. symmetry. apply leaves_spec. eauto 6.
  Qed.

  (** A function that always throws. *)
  Definition first_only (s : st) : Prop :=
    (count_calls (log s) = 0%nat /\ ~ in_function s) \/ (count_calls (log s) = 1%nat /\ in_function s).
  Lemma first_keep s s' : first_only s -> worker s' = worker s -> count_calls (log s') = count_calls (log s) -> first_only s'.
  Proof. unfold first_only, in_function. intros F -> ->. exact F. Qed.
  Lemma first_step past s l s' : (forall past, thr past = true) -> first_only s -> leaves past s l = false -> moved s l s' -> first_only s'.
  Proof.
    intros T F L [E|[_ ->]]; [|exact F]. destruct l as [|now who| |i d|i|i|p]; cbn [step] in E.
    - destruct (initd s); [discriminate|]. injection E as <-. apply (first_keep s); auto.
    - cbn in L. unfold wstep in E. unfold first_only, in_function in *.
      destruct (worker s) eqn:W; cbn [worker set_worker] in *.
      all: try (rewrite T in L; discriminate).
      all: repeat match type of E with context [if ?c then _ else _] => destruct c end; try discriminate; injection E as <-; cbn; try tauto.
      all: cbn in F; unfold count_calls in *; cbn [filter is_call length log emit]; destruct F as [[F _]|[_ []]]; right; split; [|exact Logic.I]; cbn; rewrite F; reflexivity.
    - destruct (worker s) eqn:W; try discriminate. destruct (alive s); [|discriminate]. destruct (stopf s); injection E as <-; [exact F|].
      unfold first_only, in_function in *. cbn. rewrite W in F. exact F.
    - destruct (nth_error (callers s) i) as [[]|]; try discriminate. destruct (initd s); [|discriminate]. destruct (alive s); [|discriminate].
      destruct (stopf s); [destruct d|]; injection E as <-; apply (first_keep s); auto.
    - unfold cstep in E. destruct (nth_error (callers s) i) as [[]|]; try discriminate; (destruct (alive s); [|discriminate]); try injection E as <-; try (apply (first_keep s); auto).
      all: destruct d; reflexivity.
    - destruct (nth_error (callers s) i) as [[]|]; try discriminate. injection E as <-. apply (first_keep s); auto.
    - destruct (initd s); [|discriminate]. destruct (alive s); [|discriminate]. injection E as <-. apply (first_keep s); auto.
  Qed.
  Lemma first_run ls : (forall past, thr past = true) -> forall past s s', first_only s -> irun past s ls = IRun s' -> first_only s'.
  Proof.
    intros T. induction ls as [|l ls IH]; intros past s s' F H; [cbn in H; injection H as <-; exact F|].
    destruct (leaves past s l) eqn:L; [cbn in H; rewrite L in H; discriminate|].
    destruct (irun_cons past s l ls _ H ltac:(discriminate) L) as (s2 & M & H2). apply (IH (past ++ [l]) s2 s'); [|exact H2]. eapply first_step; eassumption.
  Qed.
End P.

Lemma log_grows_step s l s' e : moved s l s' -> In e (log s) -> In e (log s').
Proof.
  intros [E|[_ ->]] H; [|exact H]. destruct l as [|now who| |i d|i|i|p]; cbn [step] in E.
  - destruct (initd s); [discriminate|]. injection E as <-. exact H.
  - unfold wstep in E. destruct (worker s).
    all: repeat match type of E with context [if ?c then _ else _] => destruct c end; try discriminate; injection E as <-; cbn; auto.
  - destruct (worker s); try discriminate. destruct (alive s); [|discriminate]. destruct (stopf s); injection E as <-; exact H.
  - destruct (nth_error (callers s) i) as [[]|]; try discriminate. destruct (initd s); [|discriminate]. destruct (alive s); [|discriminate].
    destruct (stopf s); [destruct d|]; injection E as <-; cbn; auto.
  - unfold cstep in E. destruct (nth_error (callers s) i) as [[| | | |]|]; try discriminate; (destruct (alive s); [|discriminate]); injection E as <-; cbn; auto.
    all: destruct d; cbn; auto.
  - destruct (nth_error (callers s) i) as [[]|]; try discriminate. injection E as <-. exact H.
  - destruct (initd s); [|discriminate]. destruct (alive s); [|discriminate]. injection E as <-. cbn; auto.
Qed.
Lemma log_grows ls : forall s s' e, run s ls = Ok s' -> In e (log s) -> In e (log s').
Proof.
  induction ls as [|l ls IH]; intros s s' e R H; [cbn in R; injection R as <-; exact H|].
  apply run_cons in R. destruct R as (s1 & M & R). apply (IH s1 s' e R). apply (log_grows_step s l s1 e M H).
Qed.
Lemma app_cases {A} (a b : list A) : forall c x d, a ++ b = c ++ x :: d -> (exists e, c = a ++ e) \/ (exists e, a = c ++ x :: e).
Proof.
  induction a as [|y a IH]; intros c x d E; [left; exists c; reflexivity|]. destruct c as [|z c]; cbn in E; injection E as E1 E2.
  - right. exists a. rewrite E1. reflexivity.
  - subst z. destruct (IH c x d E2) as [(e & ->)|(e & ->)]; [left|right]; exists e; reflexivity.
Qed.
