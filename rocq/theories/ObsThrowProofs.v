From Verif Require Import ObsThrowSpec ObserverProofs2 ObserverProofs3.

Lemma tthen_ok {V A B} (x : tres V A) (f : A -> tres V B) g w r : tthen x f g = TOk w r ->
  (exists w1 e, x = TOk w1 (TRet e) /\ f w1 = TOk w r) \/ (exists w1 e, x = TOk w1 (TExc e) /\ g w1 e = TOk w r).
Proof. destruct x as [w1 [e | e] | | |]; cbn; intros H; try discriminate; eauto 6. Qed.

Section Static.
  Variable V : Type.
  Variable self : addr.
  Variable Max : Z.
  Variable on_data : list (tev V) -> addr -> V -> tbody V.
  Variable on_disc : list (tev V) -> addr -> tbody V.
  Notation run1 := (trun self Max on_data on_disc).
  Notation clean := (Forall (@no_exception V)).

  (** ** the same callbacks, when they do not throw *)
  Fixpoint quietly (b : tbody V) : body V :=
    match b with
    | TReturn => Return
    | TThrow _ => Return
    | TDo c k => Do c (fun e => quietly (k (TRet e)))
    end.
  Definition up (e : ev V) : tev V :=
    match e with Data s o v => TData s o v | Disc s o => TDisc s o | Ret c e => TLeft c (TRet e) end.
  Definition q_data (log : list (ev V)) o v := quietly (on_data (map up log) o v).
  Definition q_disc (log : list (ev V)) o := quietly (on_disc (map up log) o).
  Notation run0 := (run self Max q_data q_disc).

  Lemma clean_up (l : list (tev V)) : clean l -> map up (flat_map seen_ev l) = l.
  Proof.
    induction 1 as [| e l H _ IH]; [reflexivity |]. cbn. rewrite map_app, IH.
    destruct H as [H1 H2]. unfold threw in H1. destruct e as [s o v | s o | o | o | c [e | x]]; cbn; auto.
    - destruct H1. eauto.
    - destruct H1. eauto.
    - destruct (H2 c x). reflexivity.
  Qed.

  (** What a run gives: it ends the program with a throw, or agrees with the run of callbacks
      that do not throw. *)
  Definition ends (log0 log : list (tev V)) : Prop :=
    exists evs e, log = log0 ++ evs ++ [e] /\ threw e /\ clean evs.
  Definition agree (w : tworld V) (x : tres V (tworld V)) (y : res (world V * err)) : Prop :=
    match x with
    | TOk w' r => exists e evs, r = TRet e /\ t_log w' = t_log w ++ evs /\ clean evs /\ y = Ok (t_seen w', e)
    | TEnd log => ends (t_log w) log
    | TUB => y = UB
    | TFuel => y = Fuel
    end.
  (** The same for callbacks: they may throw. *)
  Definition bagree (w : tworld V) (x : tres V (tworld V)) (y : res (world V)) : Prop :=
    match x with
    | TOk w' r => exists evs, t_log w' = t_log w ++ evs /\ clean evs /\ y = Ok (t_seen w')
    | TEnd log => ends (t_log w) log
    | TUB => y = UB
    | TFuel => y = Fuel
    end.
  (** And for loops. *)
  Definition lagree (w : tworld V) (x : tres V (tworld V)) (y : res (world V)) : Prop :=
    match x with
    | TOk w' r => exists evs, r = TRet ok /\ t_log w' = t_log w ++ evs /\ clean evs /\ y = Ok (t_seen w')
    | TEnd log => ends (t_log w) log
    | TUB => y = UB
    | TFuel => y = Fuel
    end.

  Lemma ends_pre l0 a log : clean a -> ends (l0 ++ a) log -> ends l0 log.
  Proof.
    intros HA (evs & e & -> & HT & HC). exists (a ++ evs), e. rewrite !app_assoc. repeat split; auto.
    apply Forall_app. auto.
  Qed.

  Lemma seen_emit (w : tworld V) e : t_seen (temit w e) = W (t_slots w) (t_cnt w) (t_inside w) (flat_map seen_ev (t_log w) ++ seen_ev e).
  Proof. unfold t_seen, temit. cbn. rewrite flat_map_app. cbn. rewrite app_nil_r. reflexivity. Qed.

  Lemma body_agree step step0 :
    (forall w c, clean (t_log w) -> agree w (step w c) (step0 (t_seen w) c)) ->
    forall b w, clean (t_log w) -> bagree w (tbody_run step b w) (run_body step0 (quietly b) (t_seen w)).
  Proof.
    intros HS. induction b as [| x | c k IH]; intros w HC; cbn.
    - exists []. rewrite app_nil_r. auto.
    - exists []. rewrite app_nil_r. auto.
    - pose proof (HS w c HC) as H. destruct (step w c) as [w1 r | log | |]; cbn in H.
      + destruct H as (e & evs & -> & HL & HE & ->). cbn.
        assert (HC1 : clean (t_log w1)) by (rewrite HL; apply Forall_app; auto).
        pose proof (IH (TRet e) w1 HC1) as H. unfold bagree in *.
        destruct (tbody_run step (k (TRet e)) w1) as [w2 r | log | |].
        * destruct H as (evs2 & HL2 & HE2 & ->). exists (evs ++ evs2). rewrite HL2, HL, app_assoc.
          split; [reflexivity |]. split; [apply Forall_app; auto | reflexivity].
        * rewrite HL in H. exact (ends_pre _ _ _ HE H).
        * exact H.
        * exact H.
      + exact H.
      + rewrite H. reflexivity.
      + rewrite H. reflexivity.
  Qed.

  Lemma no_exc_data s o v : @no_exception V (TData s o v).
  Proof. split; [intros (p & [H | H]); discriminate | discriminate]. Qed.
  Lemma no_exc_disc s o : @no_exception V (TDisc s o).
  Proof. split; [intros (p & [H | H]); discriminate | discriminate]. Qed.
  Lemma no_exc_left c e : @no_exception V (TLeft c (TRet e)).
  Proof. split; [intros (p & [H | H]); discriminate | discriminate]. Qed.

  Lemma round_agree step step0 b (w : tworld V) e e' :
    (forall w c, clean (t_log w) -> agree w (step w c) (step0 (t_seen w) c)) ->
    clean (t_log w) -> no_exception e -> threw e' ->
    lagree w (tthen (tbody_run step b (temit w e)) (fun w' => TOk w' (TRet ok)) (fun w' _ => TEnd (t_log w' ++ [e'])))
             (run_body step0 (quietly b) (t_seen (temit w e))).
  Proof.
    intros HS HC HE HT.
    assert (HC1 : clean (t_log (temit w e))) by (cbn; apply Forall_app; auto).
    pose proof (body_agree _ _ HS b _ HC1) as H. unfold bagree in H.
    destruct (tbody_run step b (temit w e)) as [w' [r | x] | log | |]; cbn.
    - destruct H as (evs & HL & HF & ->). exists (e :: evs). rewrite HL. cbn. rewrite <- app_assoc. auto.
    - destruct H as (evs & HL & HF & _). exists (e :: evs), e'. rewrite HL. cbn. rewrite <- !app_assoc. auto.
    - cbn in H. apply (ends_pre _ [e] _ (Forall_cons _ HE (Forall_nil _)) H).
    - exact H.
    - exact H.
  Qed.

  Lemma disc_agree step step0 i w :
    (forall w c, clean (t_log w) -> agree w (step w c) (step0 (t_seen w) c)) -> clean (t_log w) ->
    lagree w (tcall_disc self on_disc step i w) (call_disc self q_disc step0 i (t_seen w)).
  Proof.
    intros HS HC. unfold tcall_disc, call_disc. cbn. destruct (slot (t_slots w) i) as [[o |] | |]; cbn; auto.
    unfold q_disc at 1. rewrite (clean_up _ HC).
    assert (E : emit (t_seen w) (Disc self o) = t_seen (temit w (TDisc self o))) by (rewrite seen_emit; reflexivity).
    rewrite E. apply round_agree; auto.
    - apply no_exc_disc.
    - exists o. auto.
  Qed.
  Lemma data_agree step step0 v i w :
    (forall w c, clean (t_log w) -> agree w (step w c) (step0 (t_seen w) c)) -> clean (t_log w) ->
    lagree w (tcall_data self on_data step v i w) (call_data self q_data step0 i v (t_seen w)).
  Proof.
    intros HS HC. unfold tcall_data, call_data. cbn. destruct (slot (t_slots w) i) as [[o |] | |]; cbn; auto.
    unfold q_data at 1. rewrite (clean_up _ HC).
    assert (E : emit (t_seen w) (Data self o v) = t_seen (temit w (TData self o v))) by (rewrite seen_emit; reflexivity).
    rewrite E. apply round_agree; auto.
    - apply no_exc_data.
    - exists o. auto.
  Qed.

  Lemma loop_agree f f0 :
    (forall i w, clean (t_log w) -> lagree w (f i w) (f0 i (t_seen w))) ->
    forall k i w, clean (t_log w) -> lagree w (tloop f i k w) (loop f0 i k (t_seen w)).
  Proof.
    intros HF. induction k as [| k IH]; intros i w HC; cbn.
    - exists []. rewrite app_nil_r. auto.
    - pose proof (HF i w HC) as H. unfold lagree in *. destruct (f i w) as [w1 r | log | |]; cbn.
      + destruct H as (evs & -> & HL & HE & ->). cbn.
        assert (HC1 : clean (t_log w1)) by (rewrite HL; apply Forall_app; auto).
        pose proof (IH (S i) w1 HC1) as H. destruct (tloop f (S i) k w1) as [w2 r | log | |].
        * destruct H as (evs2 & -> & HL2 & HE2 & ->). exists (evs ++ evs2). rewrite HL2, HL, app_assoc.
          repeat split; auto. apply Forall_app. auto.
        * rewrite HL in H. exact (ends_pre _ _ _ HE H).
        * exact H.
        * exact H.
      + exact H.
      + rewrite H. reflexivity.
      + rewrite H. reflexivity.
  Qed.

  Lemma left_agree w c a n i r : agree w (TOk (temit (TW a n i (t_log w)) (TLeft c (TRet r))) (TRet r))
    (Ok (emit (W a n i (flat_map seen_ev (t_log w))) (Ret c r), r)).
  Proof.
    exists r, [TLeft c (TRet r)]. split; [reflexivity |]. split; [reflexivity |]. split.
    - constructor; [apply no_exc_left | constructor].
    - rewrite seen_emit. reflexivity.
  Qed.

  (** A run that has returned, and the last step of the call. *)
  Lemma left_after w w1 evs c n i r : t_log w1 = t_log w ++ evs -> clean evs ->
    agree w (TOk (temit (TW (t_slots w1) n i (t_log w1)) (TLeft c (TRet r))) (TRet r))
      (Ok (emit (W (t_slots w1) n i (flat_map seen_ev (t_log w1))) (Ret c r), r)).
  Proof.
    intros HL HE. exists r, (evs ++ [TLeft c (TRet r)]). split; [reflexivity |]. split; [cbn; rewrite HL, app_assoc; reflexivity |]. split.
    - apply Forall_app. split; auto. constructor; [apply no_exc_left | constructor].
    - rewrite seen_emit. reflexivity.
  Qed.

  Lemma trun_agree : forall f w c, clean (t_log w) -> agree w (run1 f w c) (run0 f (t_seen w) c).
  Proof.
    induction f as [| f IH]; intros w c HC; [reflexivity |].
    destruct c as [o | o | | v]; cbn [ObsThrowModel.trun ObserverModel.run].
    - change (w_slots (t_seen w)) with (t_slots w). change (w_cnt (t_seen w)) with (t_cnt w).
      destruct (add_observer Max (t_slots w) (t_cnt w) o) as [[[a n] e] | |]; cbn; auto. apply left_agree.
    - change (w_slots (t_seen w)) with (t_slots w). change (w_cnt (t_seen w)) with (t_cnt w).
      destruct (remove_observer Max (t_slots w) (t_cnt w) o) as [[[a n] e] | |]; cbn; auto. apply left_agree.
    - change (w_cnt (t_seen w)) with (t_cnt w).
      pose proof (loop_agree _ _ (fun i w => disc_agree _ _ i w IH) (t_cnt w) 0 w HC) as H. unfold lagree in H.
      destruct (tloop _ 0 (t_cnt w) w) as [w1 r | log | |]; cbn [ObsThrowModel.tthen].
      + destruct H as (evs & -> & HL & HE & ->). cbn [bind]. apply left_after with evs; auto.
      + exact H.
      + rewrite H. reflexivity.
      + rewrite H. reflexivity.
    - change (w_cnt (t_seen w)) with (t_cnt w). change (w_inside (t_seen w)) with (t_inside w).
      destruct (max_observers Max <? t_cnt w)%nat; [destruct w; apply left_agree |].
      destruct (t_inside w) eqn:EI; [pose proof (left_agree w (Notify v) (t_slots w) (t_cnt w) true notify_recursion_detected) as H;
        destruct w; cbn in EI; subst; exact H |].
      pose proof (loop_agree _ (fun i => call_data self q_data (run0 f) i v) (fun i w => data_agree _ _ v i w IH) (t_cnt w) 0
                    (TW (t_slots w) (t_cnt w) true (t_log w)) HC) as H. unfold lagree in H.
      change (t_seen (TW (t_slots w) (t_cnt w) true (t_log w))) with (W (w_slots (t_seen w)) (t_cnt w) true (w_log (t_seen w))) in H.
      destruct (tloop _ 0 (t_cnt w) _) as [w1 r | log | |]; cbn [ObsThrowModel.tthen].
      + destruct H as (evs & -> & HL & HE & ->). cbn [bind]. apply left_after with evs; auto.
      + exact H.
      + rewrite H. reflexivity.
      + rewrite H. reflexivity.
  Qed.

  Lemma trun_all_agree f : forall l w, clean (t_log w) ->
    match trun_all self Max on_data on_disc f w l with
    | TOk w' r => r = TRet ok /\ clean (t_log w') /\ run_all self Max q_data q_disc f (t_seen w) l = Ok (t_seen w')
    | TEnd log => ends (t_log w) log
    | TUB => run_all self Max q_data q_disc f (t_seen w) l = UB
    | TFuel => run_all self Max q_data q_disc f (t_seen w) l = Fuel
    end.
  Proof.
    induction l as [| c l IH]; intros w HC; cbn [ObsThrowModel.trun_all ObserverModel.run_all]; auto.
    pose proof (trun_agree f w c HC) as H. unfold agree in H.
    destruct (run1 f w c) as [w1 r | log | |]; cbn.
    - destruct H as (e & evs & -> & HL & HE & ->). cbn [bind].
      assert (HC1 : clean (t_log w1)) by (rewrite HL; apply Forall_app; auto).
      pose proof (IH w1 HC1) as H. destruct (trun_all self Max on_data on_disc f w1 l); auto.
      rewrite HL in H. exact (ends_pre _ _ _ HE H).
    - exact H.
    - rewrite H. reflexivity.
    - rewrite H. reflexivity.
  Qed.

  Lemma seen_fresh : t_seen (tfresh Max) = @fresh V Max.
  Proof. reflexivity. Qed.

  Lemma tmembers_seen l : clean l -> tmembers l = members (flat_map seen_ev l).
  Proof.
    unfold tmembers, members. generalize (@nil addr). intros m H. revert m.
    induction H as [| e l H _ IH]; intros m; cbn; [reflexivity |]. rewrite fold_left_app, IH. f_equal.
    destruct H as [H1 H2]. unfold threw in H1. destruct e as [s o v | s o | o | o | c [e | x]]; cbn; auto.
    destruct (H2 c x). reflexivity.
  Qed.

  Lemma treach_inv w : treaches self Max on_data on_disc w ->
    clean (t_log w) /\ inv self Max (t_seen w) /\ t_inside w = false /\ t_cnt w = length (tmembers (t_log w)) /\
    exists rest, t_slots w = map Some (tmembers (t_log w)) ++ rest.
  Proof.
    intros (f & l & H). pose proof (trun_all_agree f l (tfresh Max) (Forall_nil _)) as HA. rewrite H in HA.
    destruct HA as (_ & HC & HR). rewrite seen_fresh in HR.
    destruct (reach_inv self Max q_data q_disc (t_seen w)) as [HI HN]; [exists f, l; exact HR |].
    split; [exact HC |]. split; [exact HI |]. split; [exact HN |].
    rewrite (tmembers_seen _ HC). destruct HI; eauto.
  Qed.
End Static.

Lemma run_all_no_ub {V} self Max (d : list (ev V) -> addr -> V -> body V) c f calls : run_all self Max d c f (fresh Max) calls = UB -> False.
Proof.
  assert (G : forall w, inv self Max w -> run_all self Max d c f w calls <> UB).
  { induction calls as [|x l IH]; intros w I; cbn [run_all]; [discriminate|].
    pose proof (run_post self Max d c f w x I) as P.
    destruct (run self Max d c f w x) as [[w' e]| |]; cbn [bind]; [|contradiction|discriminate].
    apply IH. apply P. }
  apply G. apply inv_fresh.
Qed.
