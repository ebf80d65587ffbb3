(** Observeds hold what they were told last, whatever the callbacks do. *)
From Verif Require Export ValuesProofs5.

Lemma told_snoc m log e o : told m (log ++ [e]) o = told_step o (told m log o) e.
Proof. unfold told. rewrite fold_left_app. reflexivity. Qed.
Lemma told_set m log o n mir : (forall x, mir x = told m log x) ->
  forall x, set_mirror mir o n x = told m (log ++ [Store o n]) x.
Proof.
  intros H x. rewrite told_snoc. cbn [told_step]. unfold set_mirror. destruct (Pos.eqb_spec x o) as [->|N].
  - destruct (Pos.eq_dec o o); [reflexivity|congruence].
  - destruct (Pos.eq_dec o x); [congruence|apply H].
Qed.
Lemma math_one log e : math_value (log ++ [e]) = math_step (math_value log) e.
Proof. unfold math_value. rewrite fold_left_app. reflexivity. Qed.
Definition silent_ev (e : vev) : Prop := match e with Applied _ | Store _ _ => False | _ => True end.
Lemma told_silent m log e o : silent_ev e -> told m (log ++ [e]) o = told m log o.
Proof. rewrite told_snoc. destruct e; intros []; reflexivity. Qed.
Lemma math_silent log e : silent_ev e -> math_value (log ++ [e]) = math_value log.
Proof. rewrite math_one. destruct e; intros []; reflexivity. Qed.

Section Fixed.
  Variable t : ity.
  Variable Max : Z.
  Variable upd : list vev -> addr -> Z -> vbody.
  Variable disc : list vev -> addr -> vbody.
  Variable m : addr -> Z.
  Definition vtrue (w : vworld) : Prop := forall o, v_mirror w o = told m (v_log w) o.
  Lemma vtrue_emit w a n e : vtrue w -> silent_ev e -> vtrue (vemit (VW (v_val w) a n (v_mirror w) (v_log w)) e).
  Proof. intros H S o. cbn [vemit v_mirror v_log]. rewrite told_silent by exact S. apply H. Qed.
  Section Step.
    Variable step : vworld -> vcall -> res (vworld * vres).
    Hypothesis HS : forall w c w' r, vtrue w -> step w c = Ok (w', r) -> vtrue w'.
    Lemma vbody_true b : forall w w', vtrue w -> vbody_run step b w = Ok w' -> vtrue w'.
    Proof.
      induction b as [|c k IH]; intros w w' H E; cbn [vbody_run] in E; [inversion E; subst; exact H|].
      destruct (step w c) as [[w1 r]| |] eqn:ES; cbn [bind] in E; try discriminate. eapply IH; [|exact E]. eapply HS; eassumption.
    Qed.
    Lemma vloop_true f : (forall i w w', vtrue w -> f i w = Ok w' -> vtrue w') ->
      forall k i w w', vtrue w -> vloop f i k w = Ok w' -> vtrue w'.
    Proof.
      intros Hf. induction k as [|k IH]; intros i w w' H E; cbn [vloop] in E; [inversion E; subst; exact H|].
      destruct (f i w) as [w1| |] eqn:E1; cbn [bind] in E; try discriminate. eapply IH; [|exact E]. eapply Hf; eassumption.
    Qed.
    Lemma vdata_true n i w w' : vtrue w -> vcall_data upd step n i w = Ok w' -> vtrue w'.
    Proof.
      intros H E. unfold vcall_data in E. destruct (slot (v_slots w) i) as [[o|]| |]; cbn [bind] in E; try discriminate.
      eapply vbody_true; [|exact E]. intros x. cbn [vemit v_mirror v_log]. apply told_set, H.
    Qed.
    Lemma vdisc_true i w w' : vtrue w -> vcall_disc disc step i w = Ok w' -> vtrue w'.
    Proof.
      intros H E. unfold vcall_disc in E. destruct (slot (v_slots w) i) as [[o|]| |]; cbn [bind] in E; try discriminate.
      eapply vbody_true; [|exact E]. intros x. cbn [vemit v_mirror v_log]. rewrite told_silent by exact I. apply H.
    Qed.
    Lemma vnotify_true n w w' e : vtrue w -> vnotify Max upd step n w = Ok (w', e) -> vtrue w'.
    Proof.
      intros H E. unfold vnotify in E. destruct (max_observers Max <? v_cnt w)%nat; [inversion E; subst; exact H|].
      destruct (vloop _ 0 (v_cnt w) w) as [w1| |] eqn:EL; cbn [bind] in E; try discriminate. inversion E; subst.
      eapply vloop_true; [|exact H|exact EL]. intros i a b. apply vdata_true.
    Qed.
  End Step.
  Lemma vrun_true f : forall w c w' r, vtrue w -> vrun t Max upd disc f w c = Ok (w', r) -> vtrue w'.
  Proof.
    induction f as [|f IH]; intros w c w' r H E; [discriminate|]. cbn [vrun] in E. destruct c as [o|o| |n|o].
    - destruct (add_observer Max (v_slots w) (v_cnt w) o) as [[[a n] e]| |]; cbn [bind] in E; try discriminate.
      inversion E; subst. apply vtrue_emit; [exact H|exact I].
    - destruct (remove_observer Max (v_slots w) (v_cnt w) o) as [[[a n] e]| |]; cbn [bind] in E; try discriminate.
      inversion E; subst. apply vtrue_emit; [exact H|exact I].
    - destruct (vloop _ 0 (v_cnt w) w) as [w1| |] eqn:EL; cbn [bind] in E; try discriminate. inversion E; subst.
      assert (H1 : vtrue w1) by (eapply vloop_true; [|exact H|exact EL]; intros i a b; apply vdisc_true, IH).
      intros x. cbn [vemit v_mirror v_log]. rewrite told_silent by exact I. apply H1.
    - destruct (vnotify Max upd (vrun t Max upd disc f) (conv t n) w) as [[w1 e]| |] eqn:EL; cbn [bind] in E; try discriminate.
      inversion E; subst. pose proof (vnotify_true _ IH _ _ _ _ H EL) as H1.
      intros x. cbn [vemit v_mirror v_log]. rewrite told_silent by exact I. apply H1.
    - destruct (published t (v_val w) o) as [p| |]; cbn [bind] in E; try discriminate.
      destruct (vnotify Max upd (vrun t Max upd disc f) p _) as [[w1 e]| |] eqn:EL; cbn [bind] in E; try discriminate.
      inversion E; subst.
      assert (H1 : vtrue w1).
      { eapply vnotify_true; [exact IH| |exact EL]. intros x. cbn [vemit v_mirror v_log]. rewrite told_snoc. apply H. }
      intros x. cbn [vemit v_mirror v_log]. rewrite told_silent by exact I. apply H1.
  Qed.
  Lemma vrun_all_true f calls : forall w w', vtrue w -> vrun_all t Max upd disc f w calls = Ok w' -> vtrue w'.
  Proof.
    induction calls as [|c l IH]; intros w w' H E; cbn [vrun_all] in E; [inversion E; subst; exact H|].
    destruct (vrun t Max upd disc f w c) as [[w1 r]| |] eqn:E1; cbn [bind] in E; try discriminate.
    eapply IH; [|exact E]. eapply vrun_true; eassumption.
  Qed.
End Fixed.

Section Dyn.
  Variable t : ity.
  Hypothesis T : ity_ok t.
  Variable upd : list vev -> addr -> Z -> vbody.
  Variable disc : list vev -> addr -> vbody.
  Variable m : addr -> Z.
  Definition dtrue (w : dvc) : Prop :=
    dc_val w = conv t (math_value (dc_log w)) /\ forall o, dc_mirror w o = told m (dc_log w) o.
  Lemma dtrue_emit w l k e : dtrue w -> silent_ev e -> dtrue (dcemit (DVC (dc_val w) l k (dc_mirror w) (dc_log w)) e).
  Proof.
    intros [H1 H2] S. split; cbn [dcemit dc_val dc_mirror dc_log].
    - rewrite math_silent by exact S. exact H1.
    - intros o. rewrite told_silent by exact S. apply H2.
  Qed.
  Section Step.
    Variable step : dvc -> vcall -> res (dvc * vres).
    Hypothesis HS : forall w c w' r, dtrue w -> step w c = Ok (w', r) -> dtrue w'.
    Lemma dbody_true b : forall w w', dtrue w -> dcbody_run step b w = Ok w' -> dtrue w'.
    Proof.
      induction b as [|c k IH]; intros w w' H E; cbn [dcbody_run] in E; [inversion E; subst; exact H|].
      destruct (step w c) as [[w1 r]| |] eqn:ES; cbn [bind] in E; try discriminate. eapply IH; [|exact E]. eapply HS; eassumption.
    Qed.
    Lemma dround_true enter cb i w w' : (forall w o, dtrue w -> dtrue (enter w o)) ->
      dtrue w -> dc_round enter cb step i w = Ok w' -> dtrue w'.
    Proof.
      intros HE H E. unfold dc_round in E. destruct (nth_error (dc_obs w) i) as [o|]; [|discriminate].
      destruct (dcbody_run step (cb (dc_log w) o) (enter w o)) as [w1| |] eqn:EB; cbn [bind] in E; try discriminate.
      destruct (dc_ver w1 =? dc_ver w)%nat; [|discriminate]. inversion E; subst. eapply dbody_true; [|exact EB]. apply HE, H.
    Qed.
    Lemma dloop_true f : (forall i w w', dtrue w -> f i w = Ok w' -> dtrue w') ->
      forall k i w w', dtrue w -> dc_loop f i k w = Ok w' -> dtrue w'.
    Proof.
      intros Hf. induction k as [|k IH]; intros i w w' H E; cbn [dc_loop] in E; [inversion E; subst; exact H|].
      destruct (f i w) as [w1| |] eqn:E1; cbn [bind] in E; try discriminate. eapply IH; [|exact E]. eapply Hf; eassumption.
    Qed.
    Lemma dnotify_true n w w' : dtrue w -> dc_notify upd step n w = Ok w' -> dtrue w'.
    Proof.
      unfold dc_notify. apply dloop_true. intros i a b. apply dround_true. intros w0 o [H1 H2].
      split; cbn [dcemit dc_val dc_mirror dc_log]; [rewrite math_one; exact H1|apply told_set, H2].
    Qed.
    Lemma dclear_true n w w' : dtrue w ->
      dc_loop (dc_round (fun w o => dcemit w (VDisc o)) disc step) 0 n w = Ok w' -> dtrue w'.
    Proof.
      apply dloop_true. intros i a b. apply dround_true. intros w0 o H.
      destruct w0 as [v l k mm g]. exact (dtrue_emit (DVC v l k mm g) l k (VDisc o) H I).
    Qed.
  End Step.
  Lemma drun_true f : forall w c w' r, dtrue w -> dcrun t upd disc f w c = Ok (w', r) -> dtrue w'.
  Proof.
    induction f as [|f IH]; intros w c w' r H E; [discriminate|]. cbn [dcrun] in E. destruct c as [o|o| |n|o].
    - destruct (existsb (Pos.eqb o) (dc_obs w)); cbn [bind] in E; inversion E; subst.
      + destruct w as [v l k mm g]. refine (dtrue_emit (DVC v l k mm g) l k _ H _); exact I.
      + apply dtrue_emit; [exact H|exact I].
    - destruct (length (dc_obs w) =? 0)%nat.
      { cbn [bind] in E. inversion E; subst. destruct w as [v l k mm g]. refine (dtrue_emit (DVC v l k mm g) l k _ H _); exact I. }
      destruct (vec_remove (dc_obs w) o) as [[a it]| |]; cbn [bind] in E; try discriminate.
      destruct (unwrap a) as [l| |]; cbn [bind] in E; try discriminate. inversion E; subst. apply dtrue_emit; [exact H|exact I].
    - destruct (dc_loop _ 0 (length (dc_obs w)) w) as [w1| |] eqn:EL; cbn [bind] in E; try discriminate. inversion E; subst.
      apply dtrue_emit; [|exact I]. eapply dclear_true; [exact IH|exact H|exact EL].
    - destruct (dc_notify upd (dcrun t upd disc f) (conv t n) w) as [w1| |] eqn:EL; cbn [bind] in E; try discriminate.
      inversion E; subst. pose proof (dnotify_true _ IH _ _ _ H EL) as H1.
      destruct w1 as [v l k mm g]. refine (dtrue_emit (DVC v l k mm g) l k _ H1 _); exact I.
    - destruct (published t (dc_val w) o) as [p| |]; cbn [bind] in E; try discriminate.
      destruct (dc_notify upd (dcrun t upd disc f) p _) as [w1| |] eqn:EL; cbn [bind] in E; try discriminate.
      inversion E; subst.
      assert (H1 : dtrue w1).
      { eapply dnotify_true; [exact IH| |exact EL]. destruct H as [HV HM]. split; cbn [dcemit dc_val dc_mirror dc_log].
        - rewrite math_one. cbn [math_step]. rewrite HV. apply apply_conv, T.
        - intros x. rewrite told_snoc. apply HM. }
      destruct w1 as [v l k mm g]. refine (dtrue_emit (DVC v l k mm g) l k _ H1 _); exact I.
  Qed.
  Lemma drun_all_true f calls : forall w w', dtrue w -> dcrun_all t upd disc f w calls = Ok w' -> dtrue w'.
  Proof.
    induction calls as [|c l IH]; intros w w' H E; cbn [dcrun_all] in E; [inversion E; subst; exact H|].
    destruct (dcrun t upd disc f w c) as [[w1 r]| |] eqn:E1; cbn [bind] in E; try discriminate.
    eapply IH; [|exact E]. eapply drun_true; eassumption.
  Qed.
End Dyn.
