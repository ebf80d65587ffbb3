(** Lemmas for the interval_event properties. *)
From Verif Require Export IntervalSpec.

Definition gone (w : wpc) : Prop := w = WNotify \/ w = WDone.

Lemma in_put_at l i c x : In x (put_at l i c) -> x = c \/ In x l.
Proof.
  revert i. induction l as [|y l IH]; intros [|i]; cbn; try tauto.
  - intros [H|H]; [left; congruence|right; right; exact H].
  - intros [H|H]; [right; left; exact H|]. destruct (IH i H); [left|right; right]; assumption.
Qed.
Lemma in_wake_first l x : In x (wake_first l) -> In x l \/ exists d, x = CWait d /\ In (CBlocked d) l.
Proof.
  induction l as [|y l IH]; cbn; [tauto|].
  assert (G : In x (y :: wake_first l) -> (y = x \/ In x l) \/ exists d, x = CWait d /\ (y = CBlocked d \/ In (CBlocked d) l)).
  { intros [H|H]; [left; left; exact H|]. destruct (IH H) as [H1|(d & E & H1)]; [left; right; exact H1|right; exists d; auto]. }
  destruct y; try exact G. intros [H|H]; [right; exists d; auto|left; right; exact H].
Qed.
Lemma in_notify l who x : In x (notify l who) -> In x l \/ exists d, x = CWait d /\ In (CBlocked d) l.
Proof.
  unfold notify. destruct (nth_error l who) as [c|] eqn:E; [|apply in_wake_first].
  destruct c; try apply in_wake_first. intros H. apply in_put_at in H. destruct H as [->|H]; [|left; exact H].
  right. exists d. split; [reflexivity|]. eapply nth_error_In, E.
Qed.
Lemma put_at_length l i c : length (put_at l i c) = length l.
Proof. revert i. induction l as [|y l IH]; intros [|i]; cbn; auto. Qed.
Lemma wake_first_length l : length (wake_first l) = length l.
Proof. induction l as [|y l IH]; cbn; [reflexivity|]. destruct y; cbn; auto. Qed.
Lemma notify_length l who : length (notify l who) = length l.
Proof. unfold notify. destruct (nth_error l who) as [[]|]; rewrite ?put_at_length; auto using wake_first_length. Qed.

(** What every reachable state satisfies. *)
Definition cok (s : st) (c : cpc) : Prop :=
  match c with
  | CFin _ => gone (worker s)
  | CWait _ | CBlocked _ => gone (worker s) \/ flag s = false
  | _ => True
  end.
(** The worker may still call without another look at the flag. *)
Definition armed (w : wpc) : Prop := w = WStart \/ w = WCheck \/ exists t, w = WFire t.

Record inv (s : st) : Prop := {
  i_stop : stopf s = true -> gone (worker s);
  i_callers : forall c, In c (callers s) -> cok s c;
  i_cb : (worker s = WCbWait -> flag s = false) /\ worker s <> WCbFin;
  i_alive : alive s = false -> gone (worker s);
  i_return : forall i, In (EReturn i) (log s) -> gone (worker s);
  i_after : forall l1 i l2, log s = l1 ++ EReturn i :: l2 -> count_calls l1 = 0%nat;
  i_clear : forall l1 i l2, log s = l1 ++ EClear i :: l2 ->
            (count_calls l1 <= 1)%nat /\ (gone (worker s) \/ flag s = false) /\ (armed (worker s) -> count_calls l1 = 0%nat);
  i_init : initd s = false -> (forall c, In c (callers s) -> c = CIdle)
}.

Lemma gone_dec w : gone w \/ ~ gone w.
Proof. unfold gone. destruct w; try (right; intros [H|H]; discriminate); [left; left|left; right]; reflexivity. Qed.
Lemma armed_not_gone w : armed w -> ~ gone w.
Proof. intros [->|[->|(t & ->)]] [H|H]; discriminate. Qed.

Lemma inv_init p n : inv (init p n).
Proof.
  split; cbn; try discriminate; try tauto.
  - intros c H. apply repeat_spec in H. subst c. exact I.
  - split; discriminate.
  - intros [|? ?] i l2 H; discriminate.
  - intros [|? ?] i l2 H; discriminate.
  - intros _ c H. apply repeat_spec in H. exact H.
Qed.

(** Logs that grow by one event. *)
Lemma cons_split (e : event) (L l1 : list event) x l2 : e :: L = l1 ++ x :: l2 ->
  (l1 = [] /\ e = x /\ L = l2) \/ exists l1', l1 = e :: l1' /\ L = l1' ++ x :: l2.
Proof.
  destruct l1 as [|y l1]; cbn; intros H; inversion H; subst.
  - left. auto.
  - right. exists l1. auto.
Qed.

(** The invariant survives a change that keeps the worker where it is (or lets it go on without
    arming it), does not raise the flag unless the worker is gone, and logs neither a call nor a
    return. *)
Lemma inv_quiet s s' :
  inv s -> log s' = log s -> stopf s' = stopf s -> alive s' = alive s ->
  (initd s = true -> initd s' = true) ->
  (gone (worker s) -> gone (worker s')) ->
  (worker s' = WCbWait -> flag s' = false) -> worker s' <> WCbFin ->
  (flag s = false -> gone (worker s') \/ flag s' = false) ->
  (armed (worker s') -> armed (worker s) \/ forall l1 i l2, log s <> l1 ++ EClear i :: l2) ->
  (forall c, In c (callers s') -> cok s' c) ->
  (initd s' = false -> forall c, In c (callers s') -> c = CIdle) ->
  inv s'.
Proof.
  intros V EL ES EA EI GW CB1 CB2 FL AR CK IN. split.
  - rewrite ES. intros H. apply GW, (i_stop _ V), H.
  - exact CK.
  - split; assumption.
  - rewrite EA. intros H. apply GW, (i_alive _ V), H.
  - rewrite EL. intros i H. apply GW, (i_return _ V i H).
  - rewrite EL. apply (i_after _ V).
  - rewrite EL. intros l1 i l2 H. destruct (i_clear _ V l1 i l2 H) as (A & B & C). split; [exact A|]. split.
    + destruct B as [B|B]; [left; apply GW, B|apply FL, B].
    + intros R. destruct (AR R) as [R'|R']; [apply C, R'|exfalso; apply (R' l1 i l2 H)].
  - exact IN.
Qed.

Lemma inv_emit s e : inv s ->
  (forall i, e = EReturn i -> gone (worker s)) ->
  (is_call e = true -> ~ gone (worker s) /\ ~ armed (worker s) /\ forall l1 i l2, log s = l1 ++ EClear i :: l2 -> count_calls l1 = 0%nat) ->
  (forall i, e = EClear i -> gone (worker s) \/ flag s = false) ->
  inv (emit s e).
Proof.
  intros V HR HC HCL. split; cbn [emit stopf callers worker flag alive log initd]; try apply V.
  - intros i [->|H]; [eapply HR; reflexivity|apply (i_return _ V i H)].
  - intros l1 i l2 H. apply cons_split in H. destruct H as [(-> & _)|(l1' & -> & H)]; [reflexivity|].
    unfold count_calls. cbn [filter]. destruct (is_call e) eqn:C.
    + exfalso. apply (proj1 (HC eq_refl)). apply (i_return _ V i). rewrite H. apply in_or_app. right. left. reflexivity.
    + apply (i_after _ V l1' i l2 H).
  - intros l1 i l2 H. apply cons_split in H. destruct H as [(-> & E & _)|(l1' & -> & H)].
    + split; [cbn; lia|]. split; [eapply HCL, E|]. reflexivity.
    + destruct (i_clear _ V l1' i l2 H) as (A & B & C). unfold count_calls in *. cbn [filter]. destruct (is_call e) eqn:CE.
      * destruct (HC eq_refl) as (N1 & N2 & N3). specialize (N3 l1' i l2 H). unfold count_calls in N3. cbn [length].
        split; [lia|]. split; [exact B|]. intros R. contradiction.
      * split; [exact A|]. split; [exact B|exact C].
Qed.

Lemma cok_mono s s' c : (gone (worker s) -> gone (worker s')) -> (flag s = false -> gone (worker s') \/ flag s' = false) ->
  cok s c -> cok s' c.
Proof. intros G F. destruct c; cbn; try tauto. Qed.

Lemma not_gone_of s w : worker s = w -> w <> WNotify -> w <> WDone -> ~ gone (worker s).
Proof. intros -> A B [H|H]; contradiction. Qed.

Ltac ng := intros [?H|?H]; congruence.
Ltac gtac := match goal with |- gone _ -> _ => let H := fresh in intros [H|H]; congruence end.

Lemma wstep_inv s now who s' : inv s -> wstep s now who = Ok (Some s') -> inv s'.
Proof.
  intros V E. unfold wstep in E.
  assert (CB : worker s <> WCbFin) by apply (i_cb _ V).
  destruct (worker s) eqn:W.
  - (* WStart *)
    inversion E; subst s'; clear E. apply inv_emit; cbn [set_last set_worker worker flag log]; try discriminate.
    eapply inv_quiet; try exact V; cbn; rewrite ?W; try reflexivity; try tauto; try discriminate; try gtac.
    + intros [A|[A|(t & A)]]; discriminate.
    + intros c H. eapply cok_mono; [| |apply (i_callers _ V c H)]; cbn; rewrite ?W; [gtac|tauto].
    + apply (i_init _ V).
  - (* WTest *)
    destruct (alive s) eqn:A; [|discriminate]. inversion E; subst s'; clear E.
    destruct (flag s) eqn:F.
    + eapply inv_quiet; try exact V; cbn; rewrite ?W, ?F; try reflexivity; try tauto; try discriminate; try gtac.
      * intros _. right. intros l1 i l2 H. destruct (i_clear _ V l1 i l2 H) as (_ & [B|B] & _); [rewrite W in B; destruct B; discriminate|congruence].
      * intros c H. pose proof (i_callers _ V c H) as K. destruct c; cbn in *; try exact I; rewrite W, ?F in K; unfold gone in K; intuition discriminate.
      * apply (i_init _ V).
    + eapply inv_quiet; try exact V; cbn; rewrite ?W, ?F; try reflexivity; try tauto; try discriminate; try gtac.
      * intros _. left. left. reflexivity.
      * intros [B|[B|(t & B)]]; discriminate.
      * intros c H. destruct c; cbn; try exact I; unfold gone; auto.
      * apply (i_init _ V).
  - (* WCheck *)
    destruct (alive s && initd s) eqn:AI; [|discriminate]. inversion E; subst s'; clear E.
    apply inv_emit; try discriminate.
    eapply inv_quiet; try exact V; cbn; rewrite ?W; try reflexivity; try tauto; try gtac.
    + destruct (_ <=? _); discriminate.
    + destruct (_ <=? _); discriminate.
    + intros _. left. right. left. reflexivity.
    + intros c H. eapply cok_mono; [| |apply (i_callers _ V c H)]; cbn; rewrite ?W; [gtac|tauto].
    + apply (i_init _ V).
  - (* WFire *)
    destruct (alive s) eqn:A; [|discriminate]. inversion E; subst s'; clear E.
    apply inv_emit; try discriminate.
    + eapply inv_quiet; try exact V; cbn; rewrite ?W; try reflexivity; try tauto; try discriminate; try gtac.
      * intros [B|[B|(t' & B)]]; discriminate.
      * intros c H. eapply cok_mono; [| |apply (i_callers _ V c H)]; cbn; rewrite ?W; [gtac|tauto].
      * apply (i_init _ V).
    + intros _. cbn. split; [ng|]. split; [intros [B|[B|(t' & B)]]; discriminate|].
      intros l1 i l2 H. apply (i_clear _ V l1 i l2 H). rewrite W. right. right. eexists; reflexivity.
  - (* WCall *)
    inversion E; subst s'; clear E.
    eapply inv_quiet; try exact V; cbn; rewrite ?W; try reflexivity; try tauto; try discriminate; try gtac.
    + intros [B|[B|(t' & B)]]; discriminate.
    + intros c H. eapply cok_mono; [| |apply (i_callers _ V c H)]; cbn; rewrite ?W; [gtac|tauto].
    + apply (i_init _ V).
  - (* WCbClear *)
    destruct (alive s) eqn:A; [|discriminate]. inversion E; subst s'; clear E.
    eapply inv_quiet; try exact V; cbn; rewrite ?W; try reflexivity; try tauto; try discriminate; try gtac.
    + intros [B|[B|(t' & B)]]; discriminate.
    + intros c H. pose proof (i_callers _ V c H) as K. destruct c; cbn in *; auto. rewrite W in K. destruct K; discriminate.
    + apply (i_init _ V).
  - (* WCbWait *)
    destruct (alive s) eqn:A; [|discriminate]. rewrite (proj1 (i_cb _ V) W) in E. discriminate.
  - contradiction.
  - (* WPause *)
    destruct (alive s && initd s) eqn:AI; [|discriminate]. inversion E; subst s'; clear E.
    eapply inv_quiet; try exact V; cbn; rewrite ?W; try reflexivity; try tauto; try discriminate; try gtac.
    + intros [B|[B|(t' & B)]]; discriminate.
    + intros c H. eapply cok_mono; [| |apply (i_callers _ V c H)]; cbn; rewrite ?W; [gtac|tauto].
    + apply (i_init _ V).
  - (* WNotify *)
    destruct (alive s) eqn:A; [|discriminate]. inversion E; subst s'; clear E.
    eapply inv_quiet; try exact V; cbn; rewrite ?W; try reflexivity; try tauto; try discriminate.
    + intros _. right. reflexivity.
    + intros [B|[B|(t' & B)]]; discriminate.
    + intros c H. destruct c; cbn; try exact I; unfold gone; auto.
    + intros H c K. apply in_notify in K. destruct K as [K|(d & -> & K)]; [apply (i_init _ V H c K)|].
      pose proof (i_init _ V H _ K). discriminate.
  - discriminate.
Qed.

Lemma inv_dead s : inv s -> gone (worker s) -> inv (set_dead s).
Proof. intros V G. split; cbn; try apply V. intros _. exact G. Qed.
Lemma inv_stopf s : inv s -> gone (worker s) -> inv (set_stopf s true).
Proof. intros V G. split; cbn; try apply V. intros _. exact G. Qed.

Lemma set_caller_inv s i c : inv s -> cok s c -> initd s = true -> inv (set_caller s i c).
Proof.
  intros V K I. eapply inv_quiet; try exact V; cbn; try reflexivity; try tauto; try apply V.
  - intros x H. apply in_put_at in H. destruct H as [->|H]; [|pose proof (i_callers _ V x H) as Q]; destruct c; try destruct x; assumption.
  - congruence.
Qed.

Lemma busy_initd s i c : inv s -> nth_error (callers s) i = Some c -> c <> CIdle -> initd s = true.
Proof.
  intros V E N. destruct (initd s) eqn:I; [reflexivity|]. exfalso. apply N. apply (i_init _ V I). eapply nth_error_In, E.
Qed.

Lemma step_inv s l s' : inv s -> step s l = Ok (Some s') -> inv s'.
Proof.
  intros V E. destruct l as [|now who| |i d|i|i|p]; cbn [step] in E.
  - destruct (initd s) eqn:I; [discriminate|]. inversion E; subst s'; clear E.
    eapply inv_quiet; try exact V; cbn; try reflexivity; try tauto; try apply V; discriminate.
  - eapply wstep_inv; eassumption.
  - destruct (worker s) eqn:W; try discriminate. destruct (alive s) eqn:A; [|discriminate]. inversion E; subst s'; clear E.
    destruct (stopf s) eqn:S; [exact V|].
    eapply inv_quiet; try exact V; cbn; rewrite ?W; try reflexivity; try tauto; try discriminate; try gtac.
    + intros [B|[B|(t' & B)]]; discriminate.
    + intros c H. eapply cok_mono; [| |apply (i_callers _ V c H)]; cbn; rewrite ?W; [gtac|tauto].
    + apply (i_init _ V).
  - destruct (nth_error (callers s) i) as [c|] eqn:N; [|discriminate]. destruct c; try discriminate.
    destruct (initd s) eqn:I; [|discriminate]. destruct (alive s) eqn:A; [|discriminate]. destruct (stopf s) eqn:S.
    + inversion E; subst s'; clear E. pose proof (i_stop _ V S) as G. apply inv_emit; try discriminate.
      * destruct d; [apply inv_emit; try discriminate; apply inv_dead; assumption|exact V].
      * intros _ _. destruct d; exact G.
    + inversion E; subst s'; clear E. apply set_caller_inv; [exact V|exact Logic.I|exact I].
  - unfold cstep in E. destruct (nth_error (callers s) i) as [c|] eqn:N; [|discriminate].
    pose proof (i_callers _ V c (nth_error_In _ _ N)) as K.
    assert (ID : c <> CIdle -> initd s = true) by (intros H; eapply busy_initd; eassumption).
    destruct c as [|d|d|d|d]; try discriminate.
    + destruct (alive s) eqn:A; [|discriminate]. inversion E; subst s'; clear E. specialize (ID ltac:(discriminate)).
      apply inv_emit; try discriminate.
      * eapply inv_quiet; try exact V; cbn; try reflexivity; try tauto; try apply V.
        -- intros x H. apply in_put_at in H. destruct H as [->|H]; [right; reflexivity|].
           pose proof (i_callers _ V x H) as Q. destruct x; cbn in *; auto.
        -- congruence.
      * intros _ _. right. reflexivity.
    + destruct (alive s) eqn:A; [|discriminate]. inversion E; subst s'; clear E. specialize (ID ltac:(discriminate)).
      apply set_caller_inv; [exact V| |exact ID]. cbn in K. destruct (flag s) eqn:F; cbn; [|tauto]. destruct K; [assumption|discriminate].
    + destruct (alive s) eqn:A; [|discriminate]. cbn in K. specialize (ID ltac:(discriminate)).
      inversion E; subst s'; clear E. apply inv_emit; try discriminate.
      * assert (V1 : inv (set_stopf (set_caller s i CIdle) true)).
        { apply inv_stopf; [|exact K]. apply set_caller_inv; [exact V|exact Logic.I|exact ID]. }
        destruct d; [|exact V1]. apply inv_emit; try discriminate. apply inv_dead; [exact V1|exact K].
      * intros _ _. destruct d; exact K.
  - destruct (nth_error (callers s) i) as [c|] eqn:N; [|discriminate]. destruct c; try discriminate.
    inversion E; subst s'; clear E. apply set_caller_inv; [exact V| |eapply busy_initd; [exact V|exact N|discriminate]].
    apply (i_callers _ V (CBlocked d) (nth_error_In _ _ N)).
  - destruct (initd s) eqn:I; [|discriminate]. destruct (alive s) eqn:A; [|discriminate]. inversion E; subst s'; clear E.
    apply inv_emit; try discriminate. eapply inv_quiet; try exact V; cbn; try reflexivity; try tauto; try apply V.
Qed.

Lemma run_ind (P : st -> Prop) : (forall s l s', P s -> step s l = Ok (Some s') -> P s') ->
  forall ls s s', P s -> run s ls = Ok s' -> P s'.
Proof.
  intros ST ls. induction ls as [|l ls IH]; intros s s' H E; cbn [run] in E; [inversion E; subst; exact H|].
  destruct (step s l) as [[s1|]| |] eqn:ES; try discriminate; [|apply (IH s s' H E)].
  apply (IH s1 s'); [apply (ST s l s1 H ES)|exact E].
Qed.
Lemma reach_inv p n s : reachable p n s -> inv s.
Proof. intros (ls & E). eapply (run_ind inv); [intros; eapply step_inv; eassumption|apply inv_init|exact E]. Qed.
Lemma run_app ls1 : forall s ls2, run s (ls1 ++ ls2) = match run s ls1 with Ok s1 => run s1 ls2 | UB => UB | Fuel => Fuel end.
Proof.
  induction ls1 as [|l ls1 IH]; intros s ls2; [reflexivity|]. cbn [app run]. destruct (step s l) as [[s1|]| |]; auto.
Qed.
Lemma reach_run p n s ls s' : reachable p n s -> run s ls = Ok s' -> reachable p n s'.
Proof. intros (l0 & E0) E. exists (l0 ++ ls). rewrite run_app, E0. exact E. Qed.
