(** Callbacks that only throw or return. *)
From Verif Require Export VThrowProofs VLifeProofs4.

Section Plain.
  Variable ty : addr -> ity.
  Variable Max : addr -> Z.
  Variable bu : addr -> Z -> bool.
  Variable bd : addr -> bool.
  Let bad := bad_ev bu bd.
  Let upd := plain_upd bu.
  Let disc := plain_disc bd.
  Definition good (e : yev) : Prop := bad e = None.

  (** What is added to the log: nothing thrown, or up to the first that throws. *)
  Definition upto {A} (lg : A -> list yev) (l0 : list yev) (z : zres A) : Prop :=
    match z with
    | ZOk a => exists m, lg a = l0 ++ m /\ Forall good m
    | ZEnd o l => exists m e, l = l0 ++ m ++ [e] /\ Forall good m /\ bad e = Some o
    | _ => True
    end.
  Lemma upto_bind {A B} (lg : A -> list yev) (lg' : B -> list yev) l0 (z : zres A) (f : A -> zres B) :
    upto lg l0 z -> (forall a, z = ZOk a -> upto lg' (lg a) (f a)) -> upto lg' l0 (zbind z f).
  Proof.
    destruct z as [a|l|o l|]; cbn [upto zbind]; auto. intros (m & E & F) H. specialize (H a eq_refl).
    destruct (f a) as [b|l|o l|]; cbn [upto] in *; auto.
    - destruct H as (m' & -> & F'). rewrite E, <- app_assoc. exists (m ++ m'). split; [reflexivity|]. apply Forall_app. auto.
    - destruct H as (m' & e & -> & F' & B'). rewrite E, <- app_assoc, app_assoc.
      exists (m ++ m'), e. rewrite <- !app_assoc. split; [reflexivity|]. split; [apply Forall_app; auto|exact B'].
  Qed.
  Lemma upto_pure {A B} (lg' : B -> list yev) l0 (y : yres A) (f : A -> zres B) :
    (forall a, y = YOk a -> upto lg' l0 (f a)) -> upto lg' l0 (zbind (zof y) f).
  Proof. destruct y; cbn [zof zbind]; intros H; [apply H; reflexivity|..]; exact I. Qed.
  Lemma upto_here {A} (lg : A -> list yev) l0 a : lg a = l0 -> upto lg l0 (ZOk a).
  Proof. intros <-. exists []. rewrite app_nil_r. split; [reflexivity|constructor]. Qed.

  (** The loops, when the callback of [o] throws just if the event of its start says so. *)
  Lemma loop_upto (enter : yworld -> addr -> yworld) (mk : addr -> yev) cb step s ver :
    (forall w o, y_log (enter w o) = y_log w ++ [mk o]) ->
    (forall log o, cb log o = match bad (mk o) with Some _ => ZThrow | None => ZReturn end) ->
    (forall o x, bad (mk o) = Some x -> x = o) ->
    forall k i w, upto y_log (y_log w) (zloop enter cb step s ver i k w).
  Proof.
    intros HE HC HO. induction k as [|k IH]; intros i w; cbn [zloop]; [apply upto_here; reflexivity|].
    apply upto_pure. intros x _. apply upto_pure. intros p _. apply upto_pure. intros o _. apply upto_pure. intros _ _.
    rewrite HC. destruct (bad (mk o)) as [x'|] eqn:B; cbn [zbody_run zbind].
    - cbn [upto]. rewrite HE. exists [], (mk o). split; [reflexivity|]. split; [constructor|].
      rewrite B. f_equal. exact (HO o x' B).
    - assert (G : upto y_log (y_log (enter w o)) (zbind (zof (ysame (enter w o) s ver)) (zloop enter cb step s ver (S i) k))).
      { apply upto_pure. intros w2 E2. replace (y_log (enter w o)) with (y_log w2); [apply IH|].
        unfold ysame in E2. destruct (y_cell (enter w o) s) as [c|]; cbn [yneed ybind] in E2; [|discriminate].
        destruct (_ =? _)%nat; [injection E2 as <-; reflexivity|discriminate]. }
      rewrite HE in G. destruct (zbind _ _) as [a|l|o' l|]; cbn [upto] in *; auto.
      + destruct G as (m & -> & F). exists (mk o :: m). rewrite <- app_assoc. split; [reflexivity|]. constructor; [exact B|exact F].
      + destruct G as (m & e & -> & F & B'). exists (mk o :: m), e. rewrite <- app_assoc. split; [reflexivity|]. split; [constructor; [exact B|exact F]|exact B'].
  Qed.
  Let lg2 (x : yworld * vres) := y_log (fst x).
  Lemma notify_upto step s n w : upto lg2 (y_log w) (znotify Max upd step s n w).
  Proof.
    unfold znotify. apply upto_pure. intros x _. destruct (_ && _); [apply upto_here; reflexivity|].
    apply (upto_bind y_log).
    - apply (loop_upto _ (fun o => YStore s o n)); [reflexivity| |].
      + intros log o. unfold upd, plain_upd, bad, bad_ev. destruct (bu o n); reflexivity.
      + intros o y. unfold bad, bad_ev. destruct (bu o n); congruence.
    - intros a _. apply upto_here. reflexivity.
  Qed.
  Lemma disconnect_upto step s w : upto y_log (y_log w) (zdisconnect disc step s w).
  Proof.
    unfold zdisconnect. apply upto_pure. intros x _.
    apply (loop_upto _ (fun o => YDisc s o)); [reflexivity| |].
    - intros log o. unfold disc, plain_disc, bad, bad_ev. destruct (bd o); reflexivity.
    - intros o y. unfold bad, bad_ev. destruct (bd o); congruence.
  Qed.
  Lemma quiet_upto w c : match c with YEnd _ | YClear _ | YNotify _ _ | YOp _ _ => False | _ => True end ->
    upto lg2 (y_log w) (zof (ydo ty Max (fun _ _ _ => YReturn) (fun _ _ => YReturn) (fun w _ => YOk w) w c)).
  Proof.
    intros Q. assert (H : forall y : yres (yworld * vres), (forall a, y = YOk a -> y_log (fst a) = y_log w) -> upto lg2 (y_log w) (zof y)).
    { intros [a|l|] H; cbn [zof]; [apply upto_here, H; reflexivity|exact I|exact I]. }
    apply H. intros a. destruct c; try destruct Q; cbn [ydo]; unfold yvacant, yneed, ylift, ybind; intros E;
      repeat match type of E with
      | context [match ?x with _ => _ end] => destruct x
      end; try discriminate; inversion E; subst; reflexivity.
  Qed.
  Lemma do_upto step w c : upto lg2 (y_log w) (zdo ty Max upd disc step w c).
  Proof.
    destruct c; cbn [zdo]; try (apply quiet_upto; exact I).
    - apply (upto_bind y_log); [apply disconnect_upto|]. intros a _. apply upto_pure. intros ? _. apply upto_here. reflexivity.
    - apply (upto_bind y_log); [apply disconnect_upto|]. intros a _. apply upto_pure. intros ? _. apply upto_here. reflexivity.
    - apply notify_upto.
    - apply upto_pure. intros x _. cbv zeta. set (w0 := yemit _ _).
      assert (G : upto lg2 (y_log w0) (zbind (zof (ylift w0 (published (ty s) (y_val x) op)))
                  (fun p => zbind (znotify Max upd step s p w0) (fun '(w1, _) => ZOk (w1, RVal p))))).
      { apply upto_pure. intros p _. apply (upto_bind lg2); [apply notify_upto|]. intros [a r] _. apply upto_here. reflexivity. }
      change (y_log w0) with (y_log w ++ [YApplied s op]) in G. destruct (zbind _ _) as [a|l|o' l|]; cbn [upto] in *; auto.
      + destruct G as (m & -> & F). exists (YApplied s op :: m). rewrite <- app_assoc. split; [reflexivity|]. constructor; [reflexivity|exact F].
      + destruct G as (m & e & -> & F & B'). exists (YApplied s op :: m), e. rewrite <- app_assoc. split; [reflexivity|].
        split; [constructor; [reflexivity|exact F]|exact B'].
  Qed.
  Lemma run_upto f w c : upto y_log (y_log w ++ [YBegin c]) (zrun ty Max upd disc f w c).
  Proof.
    destruct f as [|f]; [exact I|]. cbn [zrun].
    apply (upto_bind lg2); [apply (do_upto (zrun ty Max upd disc f) (yemit w (YBegin c)))|]. intros [a r] _.
    exists [YRet c r]. split; [reflexivity|]. repeat constructor.
  Qed.

  Lemma first_bad {A} (P : A -> Prop) (a b c d : list A) x y :
    a ++ x :: b = c ++ y :: d -> Forall P a -> ~ P x -> Forall P c -> ~ P y -> a = c /\ x = y.
  Proof.
    revert c. induction a as [|z a IH]; intros [|u c] E FA NX FC NY; cbn [app] in E; injection E as E1 E2; subst; auto.
    - inversion FC; contradiction.
    - inversion FA; contradiction.
    - inversion FA; inversion FC; subst. destruct (IH c E2) as (-> & ->); auto.
  Qed.

  Hypothesis T : forall s, ity_ok (ty s).
  (** One call from a good state. *)
  Lemma plain_run f w c : yok ty Max w -> let b := ybooked ty Max (y_log w) in
    ~ yblocked ty b c ->
    exists evs r, yeffect ty b c evs /\
      yanswer ty Max b (ybooked ty Max (y_log w ++ YBegin c :: evs)) c r /\
      (Forall good evs -> exists w', zrun ty Max upd disc (S f) w c = ZOk w' /\
         y_log w' = y_log w ++ YBegin c :: evs ++ [YRet c r]) /\
      (forall pre e post o, evs = pre ++ e :: post -> Forall good pre -> bad e = Some o ->
         zrun ty Max upd disc (S f) w c = ZEnd o (y_log w ++ YBegin c :: pre ++ [e])).
  Proof.
    intros K b NB.
    pose proof (run_rel ty Max upd disc YReturn (S f) w c) as R.
    pose proof (run_upto (S f) w c) as U.
    set (yu := instead_upd YReturn upd) in *. set (yd := instead_disc YReturn disc) in *.
    assert (IU : idle_update yu).
    { intros log o n. unfold yu, instead_upd, upd, plain_upd. destruct (bu o n); reflexivity. }
    assert (ID : idle_disc yd).
    { intros log o. unfold yd, instead_disc, disc, plain_disc. destruct (bd o); reflexivity. }
    destruct (idle_run ty Max T yu yd f w c) as [[B _]|(_ & w' & evs & r & RY & LY & EV & AN)]; [destruct c; try exact I; assumption|exact K|contradiction|].
    exists evs, r. split; [exact EV|]. split; [exact AN|].
    assert (G0 : forall e o, bad e = Some o -> ~ good e). { unfold good. intros e o E. rewrite E. discriminate. }
    rewrite RY in R. destruct (zrun ty Max upd disc (S f) w c) as [a|l|o l|]; cbn [rel] in R; try discriminate.
    - injection R as ->. cbn [upto] in U. destruct U as (m & EM & F). split.
      + intros _. exists a. auto.
      + intros pre e post o -> FP BE. exfalso. rewrite LY, <- !app_assoc in EM. apply app_inv_head in EM. cbn [app] in EM.
        injection EM as EM. rewrite <- EM in F. apply Forall_app in F. destruct F as (_ & F).
        inversion F; subst. exact (G0 _ _ BE H1).
    - cbn [upto] in U. destruct U as (m & e & EL & F & BE). destruct R as ((more & EM) & _). rewrite EL, LY in EM.
      rewrite <- !app_assoc in EM. apply app_inv_head in EM. cbn [app] in EM. injection EM as EM. split.
      + intros FE. exfalso. assert (FA : Forall good (evs ++ [YRet c r])) by (apply Forall_app; split; [exact FE|repeat constructor]).
        rewrite EM in FA. apply Forall_app in FA. destruct FA as (_ & FA). inversion FA; subst. exact (G0 _ _ BE H1).
      + intros pre e' post o' -> FP BE'. rewrite <- app_assoc in EM. cbn [app] in EM.
        destruct (first_bad good _ _ _ _ _ _ EM FP (G0 _ _ BE') F (G0 _ _ BE)) as (-> & ->).
        rewrite BE in BE'. injection BE' as ->. rewrite EL, <- app_assoc. reflexivity.
  Qed.
End Plain.
