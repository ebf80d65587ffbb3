(** Orderly programs; idle callbacks. *)
From Verif Require Export VLifeProofs2.
From Verif Require Import ObserverProofs1 ValuesProofs3.

(** ** what is open *)
Lemma fin_open l : yfinished l -> forall st, fold_left yopen_step l st = st.
Proof.
  induction 1 as [|s op l H IH|s o n l H IH|s o l H IH|c r l l' H IH H' IH']; intros st; cbn [fold_left yopen_step]; try apply IH; [reflexivity|].
  rewrite fold_left_app, IH. cbn [fold_left yopen_step tl]. apply IH'.
Qed.
Lemma fin_ret l : yfinished l -> forall st a c r b, l = a ++ YRet c r :: b -> exists k q, fold_left yopen_step a st = k :: q ++ st.
Proof.
  induction 1 as [|s op l H IH|s o n l H IH|s o l H IH|c0 r0 l l' H IH H' IH']; intros st a c r b E.
  - destruct a; discriminate.
  - destruct a as [|x a]; cbn [app] in E; [discriminate|]. injection E as <- E. cbn [fold_left yopen_step]. eapply IH, E.
  - destruct a as [|x a]; cbn [app] in E; [discriminate|]. injection E as <- E. cbn [fold_left yopen_step]. eapply IH, E.
  - destruct a as [|x a]; cbn [app] in E; [discriminate|]. injection E as <- E. cbn [fold_left yopen_step]. eapply IH, E.
  - destruct a as [|x a]; cbn [app] in E; [discriminate|]. injection E as <- E. cbn [fold_left yopen_step].
    destruct (app_eq_app _ _ _ _ E) as (m & [[Ea Eb]|[Ea Eb]]).
    + destruct m as [|y m]; cbn [app] in Eb.
      * rewrite app_nil_r in Ea. subst a. rewrite fin_open by exact H. exists c0, []. reflexivity.
      * injection Eb as <- Eb. destruct (IH (c0 :: st) a c r m Ea) as (k & q & ->). exists k, (q ++ [c0]).
        rewrite <- app_assoc. reflexivity.
    + subst a. rewrite fold_left_app, (fin_open l H). destruct m as [|y m]; cbn [app] in Eb.
      * exists c0, []. reflexivity.
      * injection Eb as <- Eb. cbn [fold_left yopen_step tl]. eapply IH', Eb.
Qed.

Section Orderly.
  Variable ty : addr -> ity.
  Variable Max : addr -> Z.
  Notation booked := (ybooked ty Max).
  Notation step := (ybook_step ty Max).

  (** Nothing goes through an observed that has ended. *)
  Definition sound (b : ybook) : Prop := forall s x o, obl_at b s = Some x -> In o (e_regs x) -> obd_at b o <> None.

  Lemma yset_some {A} (f : addr -> option A) a x b : yset f a (Some x) b = None -> f b = None /\ b <> a.
  Proof. unfold yset. destruct (Pos.eq_dec b a); [discriminate|]. auto. Qed.
  Lemma on_entry_cases b s f h y : on_entry b s f h = Some y ->
    (obl_at b h = Some y /\ h <> s) \/ exists x, h = s /\ obl_at b s = Some x /\ y = f x.
  Proof.
    unfold on_entry. destruct (obl_at b s) as [x|] eqn:E.
    - unfold yset. destruct (Pos.eq_dec h s) as [->|N]; intros H; [|left; split; assumption].
      injection H as <-. right. exists x. auto.
    - intros H. left. split; [exact H|]. intros ->. congruence.
  Qed.

  Lemma sound_step b e : sound b -> alive Max b e ->
    (forall o r, e = YRet (YObsEnd o) r -> unlisted b o) -> sound (step b e).
  Proof.
    intros S A U s x o E HI. destruct e as [c|s0 op|s0 o0 v|s0 o0|c r]; cbn [ybook_step obl_at obd_at] in *.
    - eapply S; eassumption.
    - destruct (on_entry_cases _ _ _ _ _ E) as [[E1 _]|(x1 & -> & E1 & ->)]; eapply S; eassumption.
    - intros N. apply yset_some in N. exact (S s x o E HI (proj1 N)).
    - eapply S; eassumption.
    - destruct c as [s1|s1|o1|o1|s1 o1|s1 o1|s1|s1 n|s1 op|s1|o1]; cbn [obl_at obd_at] in *.
      + unfold yset in E. destruct (Pos.eq_dec s s1); [injection E as <-; destruct HI|]. eapply S; eassumption.
      + unfold yset in E. destruct (Pos.eq_dec s s1); [discriminate|]. eapply S; eassumption.
      + intros N. apply yset_some in N. exact (S s x o E HI (proj1 N)).
      + unfold yset. destruct (Pos.eq_dec o o1) as [->|N]; [|eapply S; eassumption].
        exfalso. exact (U o1 r eq_refl s x E HI).
      + destruct r as [[]| |]; cbn [obl_at obd_at] in *; try (eapply S; eassumption).
        destruct (on_entry_cases _ _ _ _ _ E) as [[E1 _]|(x1 & -> & E1 & ->)]; [eapply S; eassumption|].
        cbn [e_regs] in HI. apply in_app_iff in HI. destruct HI as [HI|[<-|[]]]; [eapply S; eassumption|exact (proj1 A)].
      + destruct r as [[]| |]; cbn [obl_at obd_at] in *; try (eapply S; eassumption).
        destruct (on_entry_cases _ _ _ _ _ E) as [[E1 _]|(x1 & -> & E1 & ->)]; [eapply S; eassumption|].
        destruct (vector Max s1); cbn [e_regs] in HI.
        * apply rest_incl in HI. eapply S; eassumption.
        * apply in_remove in HI. eapply S; [exact E1|apply HI].
      + destruct (on_entry_cases _ _ _ _ _ E) as [[E1 _]|(x1 & -> & E1 & ->)]; [eapply S; eassumption|].
        destruct (vector Max s1); destruct HI.
      + eapply S; eassumption.
      + eapply S; eassumption.
      + eapply S; eassumption.
      + eapply S; eassumption.
  Qed.
  Lemma sound_log log : valid ty Max log -> orderly ty Max log -> sound (booked log).
  Proof.
    induction log as [|e log IH] using rev_ind; intros V O; [intros s x o E; discriminate|].
    rewrite ybooked_snoc. apply sound_step.
    - apply IH.
      + intros before e' after E. apply (V before e' (after ++ [e])). rewrite E, <- app_assoc. reflexivity.
      + intros before o r after E. apply (O before o r (after ++ [e])). rewrite E, <- app_assoc. reflexivity.
    - apply (V log e []). reflexivity.
    - intros o r ->. apply (O log o r []). reflexivity.
  Qed.

  (** With a fixed capacity nobody is listed twice, and never more than there is room for. *)
  Lemma NoDup_app_one (l : list addr) o : NoDup l -> ~ In o l -> NoDup (l ++ [o]).
  Proof.
    induction l as [|a l IH]; intros H N; cbn [app]; [repeat constructor; intros []|]. inversion H as [|? ? NI ND]; subst.
    constructor; [|apply IH; [exact ND|intros HI; apply N; right; exact HI]]. intros HI. apply in_app_iff in HI.
    destruct HI as [HI|[->|[]]]; [contradiction|]. apply N. left. reflexivity.
  Qed.
  Definition once (b : ybook) : Prop :=
    forall s x, vector Max s = false -> obl_at b s = Some x ->
      NoDup (e_regs x) /\ (length (e_regs x) <= max_observers (Max s))%nat.
  Lemma without_nodup o l : NoDup l -> NoDup (without o l).
  Proof.
    induction l as [|a l IH]; intros H; cbn [without remove]; [constructor|]. inversion H as [|? ? NI ND]; subst.
    destruct (Pos.eq_dec o a); [apply IH, ND|]. constructor; [|apply IH, ND]. intros HI. apply in_remove in HI. tauto.
  Qed.
  Lemma without_length o l : (length (without o l) <= length l)%nat.
  Proof. induction l as [|a l IH]; cbn [without remove length]; [lia|]. unfold without in IH. destruct (Pos.eq_dec o a); cbn [length]; lia. Qed.
  Lemma once_step b e : once b -> alive Max b e -> once (step b e).
  Proof.
    intros S A s x EV E. destruct e as [c|s0 op|s0 o0 v|s0 o0|c r]; cbn [ybook_step obl_at obd_at] in *;
      try (eapply S; eassumption).
    - destruct (on_entry_cases _ _ _ _ _ E) as [[E1 _]|(x1 & -> & E1 & ->)]; [eapply S; eassumption|]. exact (S _ _ EV E1).
    - destruct c as [s1|s1|o1|o1|s1 o1|s1 o1|s1|s1 n|s1 op|s1|o1]; cbn [obl_at obd_at] in *; try (eapply S; eassumption).
      + unfold yset in E. destruct (Pos.eq_dec s s1); [injection E as <-; split; [constructor|cbn [e_regs length]; lia]|]. eapply S; eassumption.
      + unfold yset in E. destruct (Pos.eq_dec s s1); [discriminate|]. eapply S; eassumption.
      + destruct r as [[]| |]; cbn [obl_at obd_at] in *; try (eapply S; eassumption).
        destruct (on_entry_cases _ _ _ _ _ E) as [[E1 _]|(x1 & -> & E1 & ->)]; [eapply S; eassumption|].
        destruct (proj2 A eq_refl EV) as (y & EY & NI & LT). rewrite E1 in EY. injection EY as <-.
        destruct (S _ _ EV E1) as [ND _]. cbn [e_regs]. split; [|rewrite app_length; cbn [length]; lia].
        apply NoDup_app_one; assumption.
      + destruct r as [[]| |]; cbn [obl_at obd_at] in *; try (eapply S; eassumption).
        destruct (on_entry_cases _ _ _ _ _ E) as [[E1 _]|(x1 & -> & E1 & ->)]; [eapply S; eassumption|].
        rewrite EV. cbn [e_regs]. destruct (S _ _ EV E1) as [ND LE]. split; [apply without_nodup, ND|].
        pose proof (without_length o1 (e_regs x1)). lia.
      + destruct (on_entry_cases _ _ _ _ _ E) as [[E1 _]|(x1 & -> & E1 & ->)]; [eapply S; eassumption|].
        rewrite EV. cbn [e_regs length]. split; [constructor|lia].
  Qed.
  Lemma once_log log : valid ty Max log -> once (booked log).
  Proof.
    induction log as [|e log IH] using rev_ind; intros V; [intros s x _ E; discriminate|].
    rewrite ybooked_snoc. apply once_step; [|apply (V log e []); reflexivity]. apply IH.
    intros before e' after E. apply (V before e' (after ++ [e])). rewrite E, <- app_assoc. reflexivity.
  Qed.

  (** During a loop begun with [n] observeds, the first [n] positions are existing ones. *)
  Definition front (b : ybook) (s : addr) (x0 : entry) : Prop :=
    forall y j o, obl_at b s = Some y -> e_since y = e_since x0 -> (j < length (e_regs x0))%nat ->
      nth_error (e_regs y ++ e_old y) j = Some o -> obd_at b o <> None.
  Lemma front_step b e s x0 : front b s x0 -> sound b -> alive Max b e -> (e_since x0 < events b)%nat ->
    (forall o r, e <> YRet (YObsEnd o) r) -> front (step b e) s x0.
  Proof.
    intros F S A LT NE y j o E ES L HN. destruct e as [c|s0 op|s0 o0 v|s0 o0|c r]; cbn [ybook_step obl_at obd_at] in *.
    - eapply F; eassumption.
    - destruct (on_entry_cases _ _ _ _ _ E) as [[E1 _]|(x1 & -> & E1 & ->)]; eapply F; eassumption.
    - intros N. apply yset_some in N. exact (F y j o E ES L HN (proj1 N)).
    - eapply F; eassumption.
    - destruct c as [s1|s1|o1|o1|s1 o1|s1 o1|s1|s1 n|s1 op|s1|o1]; cbn [obl_at obd_at] in *.
      + unfold yset in E. destruct (Pos.eq_dec s s1); [injection E as <-; cbn [e_since] in ES; lia|]. eapply F; eassumption.
      + unfold yset in E. destruct (Pos.eq_dec s s1); [discriminate|]. eapply F; eassumption.
      + intros N. apply yset_some in N. exact (F y j o E ES L HN (proj1 N)).
      + exfalso. exact (NE o1 r eq_refl).
      + destruct r as [[]| |]; cbn [obl_at obd_at] in *; try (eapply F; eassumption).
        destruct (on_entry_cases _ _ _ _ _ E) as [[E1 _]|(x1 & -> & E1 & ->)]; [eapply F; eassumption|].
        cbn [e_regs e_old e_since] in *. destruct (vector Max s1); [lia|]. rewrite <- app_assoc in HN.
        destruct (Nat.lt_trichotomy j (length (e_regs x1))) as [LJ|[EJ|GJ]].
        * rewrite nth_error_app1 in HN by exact LJ. eapply (F x1 j o); [exact E1|exact ES|exact L|].
          rewrite nth_error_app1 by exact LJ. exact HN.
        * subst j. rewrite nth_error_app2, Nat.sub_diag in HN by lia. injection HN as <-. exact (proj1 A).
        * rewrite nth_error_app2 in HN by lia. replace (j - length (e_regs x1))%nat with (Datatypes.S (j - length (e_regs x1) - 1)) in HN by lia.
          cbn [app nth_error] in HN. eapply (F x1 j o); [exact E1|exact ES|exact L|]. rewrite nth_error_app2 by lia.
          destruct (e_old x1) as [|z old]; cbn [tl] in HN; [destruct (j - _ - 1)%nat; discriminate|].
          replace (j - length (e_regs x1))%nat with (Datatypes.S (j - length (e_regs x1) - 1)) by lia. exact HN.
      + destruct r as [[]| |]; cbn [obl_at obd_at] in *; try (eapply F; eassumption).
        destruct (on_entry_cases _ _ _ _ _ E) as [[E1 _]|(x1 & -> & E1 & ->)]; [eapply F; eassumption|].
        assert (HN' : nth_error ((without o1 (e_regs x1) ++ tail_left o1 (e_regs x1)) ++ e_old x1) j = Some o).
        { destruct (vector Max s1); cbn [e_regs e_old] in HN; [exact HN|]. rewrite <- app_assoc. exact HN. }
        assert (ES' : e_since x1 = e_since x0) by (destruct (vector Max s1); exact ES).
        pose proof (rest_length o1 (e_regs x1)) as RL.
        destruct (Nat.lt_ge_cases j (length (e_regs x1))) as [LJ|GJ].
        * rewrite nth_error_app1 in HN' by lia. apply nth_error_In in HN'. apply rest_incl in HN'. eapply S; eassumption.
        * rewrite nth_error_app2 in HN' by lia. rewrite RL in HN'. eapply (F x1 j o); [exact E1|exact ES'|exact L|].
          rewrite nth_error_app2 by lia. exact HN'.
      + destruct (on_entry_cases _ _ _ _ _ E) as [[E1 _]|(x1 & -> & E1 & ->)]; [eapply F; eassumption|].
        destruct (vector Max s1); cbn [e_regs e_old e_since] in *; [lia|]. eapply F; eassumption.
      + eapply F; eassumption.
      + eapply F; eassumption.
      + eapply F; eassumption.
      + eapply F; eassumption.
  Qed.

  Lemma orderly_front before c since s x0 :
    valid ty Max (before ++ YBegin c :: since) -> orderly ty Max (before ++ YBegin c :: since) -> yfinished since ->
    obl_at (booked before) s = Some x0 -> front (booked (before ++ YBegin c :: since)) s x0.
  Proof.
    intros V O FS E0.
    assert (H : forall l1 l2, since = l1 ++ l2 -> front (booked (before ++ YBegin c :: l1)) s x0).
    { induction l1 as [|e l1 IH] using rev_ind; intros l2 EQ.
      - rewrite ybooked_snoc. destruct (step_still ty Max (booked before) (YBegin c) Logic.I) as [B1 B2].
        intros y j o E ES L HN. rewrite B1 in E. rewrite B2. rewrite E0 in E. injection E as <-.
        rewrite nth_error_app1 in HN by exact L. apply nth_error_In in HN.
        assert (SD : sound (booked before)).
        { apply sound_log.
          - intros b e a EB. apply (V b e (a ++ YBegin c :: since)). rewrite EB, <- app_assoc. reflexivity.
          - intros b o1 r a EB. apply (O b o1 r (a ++ YBegin c :: since)). rewrite EB, <- app_assoc. reflexivity. }
        eapply SD; [exact E0|exact HN].
      - replace (before ++ YBegin c :: l1 ++ [e]) with ((before ++ YBegin c :: l1) ++ [e]) by (rewrite <- app_assoc; reflexivity).
        rewrite <- app_assoc in EQ. cbn [app] in EQ.
        assert (EL : before ++ YBegin c :: since = (before ++ YBegin c :: l1) ++ e :: l2) by (rewrite EQ, <- app_assoc; reflexivity).
        rewrite ybooked_snoc. apply front_step.
        + apply (IH (e :: l2)), EQ.
        + apply sound_log.
          * intros b e1 a EB. apply (V b e1 (a ++ e :: l2)). rewrite EL, EB, <- app_assoc. reflexivity.
          * intros b o1 r a EB. apply (O b o1 r (a ++ e :: l2)). rewrite EL, EB, <- app_assoc. reflexivity.
        + apply (V _ e l2), EL.
        + rewrite events_length, app_length. cbn [length]. pose proof (stamps ty Max before s x0 E0). lia.
        + intros o r ->. destruct (O _ o r l2 EL) as [HO _]. unfold yopen in HO. rewrite fold_left_app in HO.
          cbn [fold_left yopen_step] in HO.
          destruct (fin_ret since FS (c :: fold_left yopen_step before []) l1 _ _ l2 EQ) as (k & q & HK).
          rewrite HK in HO. injection HO as _ HO. destruct q; discriminate. }
    apply (H since []). rewrite app_nil_r. reflexivity.
  Qed.
  Lemma orderly_no_dangling before c since s :
    valid ty Max (before ++ YBegin c :: since) -> orderly ty Max (before ++ YBegin c :: since) -> yfinished since ->
    ~ replaced (booked before) (booked (before ++ YBegin c :: since)) s ->
    ~ dangling (booked before) (booked (before ++ YBegin c :: since)) s (rounds 0 since).
  Proof.
    intros V O FS NR (x & y & o & EX & EY & L & HN & HO). unfold replaced in NR. rewrite EX, EY in NR.
    eapply (orderly_front before c since s x V O FS EX y); [exact EY|lia|exact L|exact HN|exact HO].
  Qed.
End Orderly.
