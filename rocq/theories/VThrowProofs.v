(** Proofs about value observables whose callbacks may throw. *)
From Verif Require Export VThrowSpec.

Lemma zof_need {A} w (x : option A) : zof (yneed w x) = match x with Some a => ZOk a | None => ZUB (y_log w) end.
Proof. destruct x; reflexivity. Qed.

Section Agree.
  Variable ty : addr -> ity.
  Variable Max : addr -> Z.
  Variable on_update : list yev -> addr -> Z -> zbody.
  Variable on_disc : list yev -> addr -> zbody.

  (** What the run with [h] in place of throws does, given the outcome of the run that throws. *)
  Definition begins (h : ybody) (log : list yev) (l : list yev) : Prop :=
    (exists more, l = log ++ more) /\ forall c k, h = YDo c k -> exists more, l = log ++ YBegin c :: more.
  Definition rel {A} (lg : A -> list yev) (h : ybody) (z : zres A) (y : yres A) : Prop :=
    match z with
    | ZOk a => y = YOk a
    | ZUB l => y = YUB l
    | ZFuel => y = YFuel
    | ZEnd _ log => match y with YOk a => begins h log (lg a) | YUB l => begins h log l | YFuel => True end
    end.
  (** The log only grows. *)
  Definition grows {A} (lg : A -> list yev) (l0 : list yev) (y : yres A) : Prop :=
    match y with YOk a => exists m, lg a = l0 ++ m | YUB l => exists m, l = l0 ++ m | YFuel => True end.

  Lemma grows_refl l0 w : y_log w = l0 -> grows y_log l0 (YOk w).
  Proof. intros <-. exists []. rewrite app_nil_r. reflexivity. Qed.
  Lemma grows_bind {A B} (lg : A -> list yev) (lg' : B -> list yev) l0 (y : yres A) (f : A -> yres B) :
    grows lg l0 y -> (forall a, y = YOk a -> grows lg' (lg a) (f a)) -> grows lg' l0 (ybind y f).
  Proof.
    destruct y as [a|l|]; cbn [grows ybind]; auto. intros (m & E) H. specialize (H a eq_refl).
    destruct (f a) as [b|l|]; cbn [grows] in *; auto; destruct H as (m' & ->); rewrite E, <- app_assoc; eauto.
  Qed.
  Lemma begins_more h log l m : begins h log l -> begins h log (l ++ m).
  Proof.
    intros ((x & ->) & H). split; [exists (x ++ m); rewrite <- app_assoc; reflexivity|].
    intros c k E. destruct (H c k E) as (x' & E'). rewrite E'. exists (x' ++ m). rewrite <- app_assoc. reflexivity.
  Qed.
  Lemma rel_bind {A B} (lg : A -> list yev) (lg' : B -> list yev) h z y (f : A -> zres B) (g : A -> yres B) :
    rel lg h z y -> (forall a, z = ZOk a -> rel lg' h (f a) (g a)) -> (forall a, y = YOk a -> grows lg' (lg a) (g a)) ->
    rel lg' h (zbind z f) (ybind y g).
  Proof.
    destruct z as [a|l|o l|]; cbn [rel zbind]; intros R H G; subst; cbn [ybind]; auto.
    destruct y as [a|l'|]; cbn [ybind]; auto. specialize (G a eq_refl).
    destruct (g a) as [b|l'|]; cbn [grows] in G; auto; destruct G as (m & ->); apply begins_more, R.
  Qed.
  Lemma rel_of {A} (lg : A -> list yev) h (y : yres A) : rel lg h (zof y) y.
  Proof. destruct y; reflexivity. Qed.

  Variable h : ybody.
  Let upd := instead_upd h on_update.
  Let disc := instead_disc h on_disc.
  Let fz := zrun ty Max on_update on_disc.
  Let fy := yrun ty Max upd disc.

  Definition ygrow (step : yworld -> ycall -> yres yworld) : Prop := forall w c, grows y_log (y_log w) (step w c).

  Lemma body_grows step b : ygrow step -> forall w, grows y_log (y_log w) (ybody_run step b w).
  Proof.
    intros G. induction b as [|c k IH]; intros w; cbn [ybody_run]; [apply grows_refl; reflexivity|].
    apply (grows_bind y_log); [apply G|]. intros a _. apply IH.
  Qed.
  Lemma need_grows {A} w (x : option A) : grows (fun _ => y_log w) (y_log w) (yneed w x).
  Proof. destruct x; exists []; rewrite app_nil_r; reflexivity. Qed.
  Lemma lift_grows {A} w (x : res A) : grows (fun _ => y_log w) (y_log w) (ylift w x).
  Proof. destruct x; try exact I; exists []; rewrite app_nil_r; reflexivity. Qed.
  Lemma vacant_grows {A} w (x : option A) : grows (fun _ => y_log w) (y_log w) (yvacant w x).
  Proof. destruct x; exists []; rewrite app_nil_r; reflexivity. Qed.
  Lemma same_grows w s v : grows y_log (y_log w) (ysame w s v).
  Proof.
    unfold ysame. apply (grows_bind (fun _ => y_log w)); [apply need_grows|]. intros x _.
    destruct (_ =? _)%nat; exists []; rewrite app_nil_r; reflexivity.
  Qed.

  Definition enters (enter : yworld -> addr -> yworld) : Prop := forall w o, exists m, y_log (enter w o) = y_log w ++ m.
  Lemma loop_grows enter cb step s ver : enters enter -> ygrow step -> forall k i w,
    grows y_log (y_log w) (yloop enter cb step s ver i k w).
  Proof.
    intros E G. induction k as [|k IH]; intros i w; cbn [yloop]; [apply grows_refl; reflexivity|].
    apply (grows_bind (fun _ => y_log w)); [apply need_grows|]. intros x _.
    apply (grows_bind (fun _ => y_log w)); [apply lift_grows|]. intros p _.
    apply (grows_bind (fun _ => y_log w)); [apply need_grows|]. intros o _.
    apply (grows_bind (fun _ => y_log w)); [apply need_grows|]. intros _ _.
    apply (grows_bind y_log).
    - destruct (E w o) as (m & EM). pose proof (body_grows step (cb (y_log w) o) G (enter w o)) as H. rewrite EM in H.
      destruct (ybody_run _ _ _) as [a|l|]; cbn [grows] in *; auto; destruct H as (m' & ->); rewrite <- app_assoc; eauto.
    - intros w1 _. apply (grows_bind y_log); [apply same_grows|]. intros w2 E2. apply IH.
  Qed.

  Lemma store_enters s n : enters (fun w o => yemit (put_obs w o (Some n)) (YStore s o n)).
  Proof. intros w o. eexists. reflexivity. Qed.
  Lemma disc_enters s : enters (fun w o => yemit w (YDisc s o)).
  Proof. intros w o. eexists. reflexivity. Qed.

  Let lg2 (x : yworld * vres) := y_log (fst x).
  Lemma notify_grows u step s n w : ygrow step -> grows lg2 (y_log w) (ynotify Max u step s n w).
  Proof.
    intros G. unfold ynotify. apply (grows_bind (fun _ => y_log w)); [apply need_grows|]. intros x _.
    destruct (_ && _); [exists []; cbn; rewrite app_nil_r; reflexivity|].
    apply (grows_bind y_log); [apply loop_grows; [apply store_enters|exact G]|].
    intros w1 _. exists []. cbn. rewrite app_nil_r. reflexivity.
  Qed.
  Lemma disconnect_grows d step s w : ygrow step -> grows y_log (y_log w) (ydisconnect d step s w).
  Proof.
    intros G. unfold ydisconnect. apply (grows_bind (fun _ => y_log w)); [apply need_grows|]. intros x _.
    apply loop_grows; [apply disc_enters|exact G].
  Qed.
  Lemma here (w w' : yworld) r : y_log w' = y_log w -> exists m, lg2 (w', r) = y_log w ++ m.
  Proof. intros E. exists []. cbn. rewrite app_nil_r. exact E. Qed.
  Lemma do_grows u d step w c : ygrow step -> grows lg2 (y_log w) (ydo ty Max u d step w c).
  Proof.
    intros G. destruct c; cbn [ydo].
    - apply (grows_bind (fun _ => y_log w)); [apply vacant_grows|]. intros _ _. apply here; reflexivity.
    - apply (grows_bind y_log); [apply disconnect_grows, G|]. intros w1 _.
      apply (grows_bind (fun _ => y_log w1)); [apply need_grows|]. intros _ _. apply here; reflexivity.
    - apply (grows_bind (fun _ => y_log w)); [apply vacant_grows|]. intros _ _. apply here; reflexivity.
    - apply (grows_bind (fun _ => y_log w)); [apply need_grows|]. intros _ _. apply here; reflexivity.
    - apply (grows_bind (fun _ => y_log w)); [apply need_grows|]. intros x _.
      apply (grows_bind (fun _ => y_log w)); [apply need_grows|]. intros _ _.
      destruct (vector Max s); [destruct (existsb _ _); apply here; reflexivity|].
      apply (grows_bind (fun _ => y_log w)); [apply lift_grows|]. intros [[a n] e] _. apply here; reflexivity.
    - apply (grows_bind (fun _ => y_log w)); [apply need_grows|]. intros x _.
      apply (grows_bind (fun _ => y_log w)); [apply need_grows|]. intros _ _.
      destruct (vector Max s); [destruct (_ =? _)%nat; [apply here; reflexivity|]|].
      all: apply (grows_bind (fun _ => y_log w)); [apply lift_grows|].
      + intros [a n] _. apply here; reflexivity.
      + intros [[a n] e] _. apply here; reflexivity.
    - apply (grows_bind y_log); [apply disconnect_grows, G|]. intros w1 _.
      apply (grows_bind (fun _ => y_log w1)); [apply need_grows|]. intros x _. apply here; reflexivity.
    - apply notify_grows, G.
    - apply (grows_bind (fun _ => y_log w)); [apply need_grows|]. intros x _.
      set (w0 := yemit _ _).
      assert (G1 : grows lg2 (y_log w0) (ybind (ylift w0 (published (ty s) (y_val x) op)) (fun p =>
        ybind (ynotify Max u step s p w0) (fun '(w1, _) => YOk (w1, RVal p))))).
      { apply (grows_bind (fun _ => y_log w0)); [apply lift_grows|]. intros p _.
        apply (grows_bind lg2); [apply notify_grows, G|]. intros [w1 r] _. apply here; reflexivity. }
      change (y_log w0) with (y_log w ++ [YApplied s op]) in G1.
      destruct (ybind _ _) as [a|l|]; cbn [grows] in *; auto; destruct G1 as (m & ->); rewrite <- app_assoc; eauto.
    - apply (grows_bind (fun _ => y_log w)); [apply need_grows|]. intros x _. apply here; reflexivity.
    - apply (grows_bind (fun _ => y_log w)); [apply need_grows|]. intros x _. apply here; reflexivity.
  Qed.
  Lemma run_grows u d f : ygrow (yrun ty Max u d f).
  Proof.
    induction f as [|f IH]; intros w c; cbn [yrun]; [exact I|].
    assert (G : grows y_log (y_log (yemit w (YBegin c)))
                 (ybind (ydo ty Max u d (yrun ty Max u d f) (yemit w (YBegin c)) c) (fun '(w1, r) => YOk (yemit w1 (YRet c r))))).
    { apply (grows_bind lg2); [apply do_grows, IH|]. intros [w1 r] _. eexists. reflexivity. }
    change (y_log (yemit w (YBegin c))) with (y_log w ++ [YBegin c]) in G.
    destruct (ybind _ _) as [a|l|]; cbn [grows] in *; auto; destruct G as (m & ->); rewrite <- app_assoc; eauto.
  Qed.
  Lemma run_begins u d f w c : match yrun ty Max u d f w c with
    YOk a => exists m, y_log a = y_log w ++ YBegin c :: m | YUB l => exists m, l = y_log w ++ YBegin c :: m | YFuel => True end.
  Proof.
    destruct f as [|f]; cbn [yrun]; [exact I|].
    assert (G : grows y_log (y_log (yemit w (YBegin c)))
                 (ybind (ydo ty Max u d (yrun ty Max u d f) (yemit w (YBegin c)) c) (fun '(w1, r) => YOk (yemit w1 (YRet c r))))).
    { apply (grows_bind lg2); [apply do_grows, run_grows|]. intros [w1 r] _. eexists. reflexivity. }
    change (y_log (yemit w (YBegin c))) with (y_log w ++ [YBegin c]) in G.
    destruct (ybind _ _) as [a|l|]; cbn [grows] in *; auto; destruct G as (m & ->); rewrite <- app_assoc; eexists; reflexivity.
  Qed.

  (** ** Agreement *)
  Definition agrees (f : nat) : Prop := forall w c, rel y_log h (fz f w c) (fy f w c).

  Lemma body_rel f o : agrees f -> forall b w, rel y_log h (zbody_run (fz f) o b w) (ybody_run (fy f) (instead h b) w).
  Proof.
    intros AG. induction b as [| |c k IH]; intros w; cbn [zbody_run instead ybody_run]; [reflexivity| |].
    - cbn [rel]. pose proof (body_grows (fy f) h (run_grows upd disc f) w) as G.
      assert (B : forall c k, h = YDo c k -> match ybody_run (fy f) h w with
                   YOk a => exists m, y_log a = y_log w ++ YBegin c :: m | YUB l => exists m, l = y_log w ++ YBegin c :: m | YFuel => True end).
      { intros c k E. rewrite E. cbn [ybody_run]. pose proof (run_begins upd disc f w c) as RB. fold fy in RB.
        destruct (fy f w c) as [a|l|]; cbn [ybind]; auto. destruct RB as (m & EM).
        pose proof (body_grows (fy f) (k (y_log a)) (run_grows upd disc f) a) as G2.
        destruct (ybody_run (fy f) (k (y_log a)) a) as [a'|l|]; cbn [grows] in G2; auto;
          destruct G2 as (m' & ->); rewrite EM, <- app_assoc; eexists; reflexivity. }
      destruct (ybody_run (fy f) h w) as [a|l|]; cbn [grows] in G; auto; (split; [exact G|exact B]).
    - apply (rel_bind y_log); [apply AG|intros a _; apply IH|].
      intros a _. apply body_grows, run_grows.
  Qed.
  Lemma rel_pure {A B} (lg' : B -> list yev) (y : yres A) (f : A -> zres B) (g : A -> yres B) :
    (forall a, y = YOk a -> rel lg' h (f a) (g a)) -> rel lg' h (zbind (zof y) f) (ybind y g).
  Proof. destruct y; cbn [zof zbind ybind]; intros H; [apply H|..]; reflexivity. Qed.
  Lemma loop_rel f enter cb s ver : agrees f -> enters enter -> forall k i w,
    rel y_log h (zloop enter cb (fz f) s ver i k w) (yloop enter (fun log o => instead h (cb log o)) (fy f) s ver i k w).
  Proof.
    intros AG EN. induction k as [|k IH]; intros i w; cbn [zloop yloop]; [reflexivity|].
    apply rel_pure. intros x _. apply rel_pure. intros p _. apply rel_pure. intros o _. apply rel_pure. intros _ _.
    apply (rel_bind y_log); [apply body_rel, AG| |].
    - intros a _. apply rel_pure. intros w2 _. apply IH.
    - intros a _. apply (grows_bind y_log); [apply same_grows|]. intros w2 _. apply loop_grows; [exact EN|apply run_grows].
  Qed.
  Lemma notify_rel f s n w : agrees f ->
    rel lg2 h (znotify Max on_update (fz f) s n w) (ynotify Max upd (fy f) s n w).
  Proof.
    intros AG. unfold znotify, ynotify. apply rel_pure. intros x _. destruct (_ && _); [reflexivity|].
    apply (rel_bind y_log); [apply (loop_rel f _ (fun log o => on_update log o n)); [exact AG|apply store_enters]|reflexivity|].
    intros a _. apply here; reflexivity.
  Qed.
  Lemma disconnect_rel f s w : agrees f -> rel y_log h (zdisconnect on_disc (fz f) s w) (ydisconnect disc (fy f) s w).
  Proof.
    intros AG. unfold zdisconnect, ydisconnect. apply rel_pure. intros x _.
    apply (loop_rel f _ on_disc); [exact AG|apply disc_enters].
  Qed.
  Lemma do_rel f w c : agrees f ->
    rel lg2 h (zdo ty Max on_update on_disc (fz f) w c) (ydo ty Max upd disc (fy f) w c).
  Proof.
    intros AG. destruct c; cbn [zdo]; try (apply (rel_of lg2)).
    - cbn [ydo]. apply (rel_bind y_log); [apply disconnect_rel, AG| |].
      + intros a _. apply rel_pure. reflexivity.
      + intros a _. apply (grows_bind (fun _ => y_log a)); [apply need_grows|]. intros ? _. apply here; reflexivity.
    - cbn [ydo]. apply (rel_bind y_log); [apply disconnect_rel, AG| |].
      + intros a _. apply rel_pure. reflexivity.
      + intros a _. apply (grows_bind (fun _ => y_log a)); [apply need_grows|]. intros ? _. apply here; reflexivity.
    - cbn [ydo]. apply notify_rel, AG.
    - cbn [ydo]. apply rel_pure. intros x _. cbv zeta. apply rel_pure. intros p _.
      apply (rel_bind lg2); [apply notify_rel, AG| |].
      + intros [a r] _. reflexivity.
      + intros [a r] _. apply here; reflexivity.
  Qed.
  Lemma run_rel f : agrees f.
  Proof.
    induction f as [|f IH]; intros w c; [reflexivity|]. unfold fz, fy. cbn [zrun yrun].
    apply (rel_bind lg2); [apply do_rel, IH| |].
    - intros [a r] _. reflexivity.
    - intros [a r] _. eexists. reflexivity.
  Qed.
  Lemma run_all_grows u d f : forall l w, grows y_log (y_log w) (yrun_all ty Max u d f w l).
  Proof.
    induction l as [|c l IH]; intros w; cbn [yrun_all]; [apply grows_refl; reflexivity|].
    apply (grows_bind y_log); [apply run_grows|]. intros a _. apply IH.
  Qed.
  Lemma run_all_rel f : forall l w, rel y_log h (zrun_all ty Max on_update on_disc f w l) (yrun_all ty Max upd disc f w l).
  Proof.
    induction l as [|c l IH]; intros w; cbn [zrun_all yrun_all]; [reflexivity|].
    apply (rel_bind y_log); [apply run_rel|intros a _; apply IH|]. intros a _. apply run_all_grows.
  Qed.
End Agree.
