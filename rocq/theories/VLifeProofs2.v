(** Runs of value observables with lifetimes against their book. *)
From Verif Require Export VLifeProofs1.
From Verif Require Import ObserverProofs1 ValuesProofs3.

Section Run.
  Variable ty : addr -> ity.
  Variable Max : addr -> Z.
  Hypothesis T : forall s, ity_ok (ty s).
  Variable upd : list yev -> addr -> Z -> ybody.
  Variable disc : list yev -> addr -> ybody.
  Notation booked := (ybooked ty Max).
  Notation yinv := (yinv ty Max).
  Notation yfault := (yfault ty).
  Notation ystuck := (ystuck ty Max).
  Notation yfair := (yfair ty Max).
  Notation lives := (lives ty Max).
  Notation yrun := (yrun ty Max upd disc).

  Definition loops (c : ycall) : Prop :=
    match c with YNotify _ _ | YOp _ _ | YClear _ | YEnd _ => True | _ => False end.

  Definition agrees (w : yworld) (c : ycall) (x : yres (yworld * vres)) : Prop :=
    (yfault (booked (y_log w)) (booked (y_log w)) 0 c /\ x = YUB (y_log w)) \/
    (~ yfault (booked (y_log w)) (booked (y_log w)) 0 c /\
     exists w1 r, x = YOk (w1, r) /\ y_log w1 = y_log w /\ yanswer ty Max (booked (y_log w)) (booked (y_log w)) c r /\
       yinv (yemit w1 (YRet c r))).

  Ltac good := right; split; [|do 2 eexists; split; [reflexivity|]; split; [reflexivity|]; split; [cbn [yanswer]|]].
  Ltac fields := split; [intros g1|intros a1]; cbn [yemit put_cell put_obs y_cell y_obs y_log]; rewrite ybooked_snoc;
    cbn [ybook_step obl_at obd_at].

  Lemma ydo_agrees self w c : yinv w -> ~ loops c -> agrees w c (ydo ty Max upd disc self w c).
  Proof.
    intros I NL. pose proof (yi_cell ty Max w I) as IC. pose proof (yi_obs ty Max w I) as IO.
    assert (EV : events (booked (y_log w)) = length (y_log w)) by apply events_length.
    destruct c as [s|s|o|o|s o|s o|s|s n|s op|s|o]; cbn [ydo]; try (exfalso; apply NL; exact Logic.I); clear NL.
    - destruct (y_cell w s) as [x|] eqn:ES; cbn [yvacant ybind].
      + left. split; [|reflexivity]. cbn [VLifeSpec.yfault]. destruct (cell_some _ _ _ _ _ I ES) as (e & E & _). rewrite E. discriminate.
      + good.
        * cbn [VLifeSpec.yfault]. rewrite (cell_none _ _ _ _ I ES). tauto.
        * reflexivity.
        * fields; [|apply IO]. apply cell_put; [exact IC|]. cbn [cell_ok e_val e_regs e_old e_since y_val y_arr y_cnt y_ver].
          split; [reflexivity|]. split; [reflexivity|]. split; [symmetry; exact EV|].
          destruct (vector Max s); [exists []; split; [reflexivity|split; reflexivity]|].
          exists (fresh_slots (Max s)). split; [reflexivity|]. apply repeat_length.
    - destruct (y_obs w o) as [v|] eqn:EO; cbn [yvacant ybind].
      + left. split; [|reflexivity]. cbn [VLifeSpec.yfault]. rewrite <- IO, EO. discriminate.
      + good.
        * cbn [VLifeSpec.yfault]. rewrite <- IO, EO. tauto.
        * reflexivity.
        * fields; [apply IC|]. apply obs_put, IO.
    - destruct (y_obs w o) as [v|] eqn:EO; cbn [yneed ybind].
      + good.
        * cbn [VLifeSpec.yfault]. rewrite <- IO, EO. discriminate.
        * reflexivity.
        * fields; [apply IC|]. apply obs_put, IO.
      + left. split; [|reflexivity]. cbn [VLifeSpec.yfault]. rewrite <- IO. exact EO.
    - destruct (y_cell w s) as [x|] eqn:ES; cbn [yneed ybind].
      2: { left. split; [|reflexivity]. left. apply (cell_none _ _ _ _ I ES). }
      destruct (cell_some _ _ _ _ _ I ES) as (e & E & HV & HC & HN & r & HA & HM).
      destruct (y_obs w o) as [v|] eqn:EO; cbn [yneed ybind].
      2: { left. split; [|reflexivity]. right. rewrite <- IO. exact EO. }
      assert (NF : ~ yfault (booked (y_log w)) (booked (y_log w)) 0 (YAdd s o)).
      { cbn [VLifeSpec.yfault]. rewrite E, <- IO, EO. intros [X|X]; discriminate. }
      destruct (vector Max s) eqn:EV0.
      + destruct HM as [HO ->]. rewrite HO, app_nil_r in HA. rewrite app_nil_r in HA. rewrite HA, find_any.
        destruct (in_dec Pos.eq_dec o (e_regs e)) as [HI|HI].
        * good; [exact NF|exists e; split; [exact E|]; rewrite EV0; destruct (in_dec Pos.eq_dec o (e_regs e)); [reflexivity|contradiction]|]. apply yinv_still; [exact I|exact Logic.I].
        * good; [exact NF|exists e; split; [exact E|]; rewrite EV0; destruct (in_dec Pos.eq_dec o (e_regs e)); [contradiction|reflexivity]|]. fields; [|apply IO]. eapply cell_edit; [exact I|exact E|]. rewrite EV0, HO.
          cbn [cell_ok e_val e_regs e_old e_since y_val y_arr y_cnt y_ver tl].
          split; [exact HV|]. split; [rewrite HC, app_length; cbn [length]; lia|]. split; [symmetry; exact EV|].
          exists []. rewrite !app_nil_r, map_app. split; [reflexivity|]. rewrite EV0. split; reflexivity.
      + rewrite HA, map_app, <- app_assoc, HC.
        destruct (add_repr (Max s) (e_regs e) (map Some (e_old e) ++ r) o) as (t' & A1 & A2 & A3).
        { rewrite <- HM, HA, map_app, <- app_assoc. reflexivity. }
        rewrite A1. cbn [ylift ybind]. destruct (add_answer (max_observers (Max s)) (e_regs e) o) eqn:EA.
        * destruct (A2 eq_refl) as (p & EP). good; [exact NF|exists e; split; [exact E|]; rewrite EV0, EA; reflexivity|]. fields; [|apply IO].
          eapply cell_edit; [exact I|exact E|]. rewrite EV0.
          cbn [cell_ok e_val e_regs e_old e_since y_val y_arr y_cnt y_ver].
          split; [exact HV|]. split; [reflexivity|]. split; [exact HN|]. rewrite EV0.
          destruct (e_old e) as [|z old]; cbn [map app tl] in EP |- *.
          -- exists t'. rewrite app_nil_r. split; [reflexivity|]. rewrite <- HM, HA, EP, app_nil_r, map_app, !app_length.
             cbn [map length]. lia.
          -- injection EP as <- <-. exists r. rewrite (map_app _ _ old), <- app_assoc. split; [reflexivity|].
             rewrite <- HM, HA, !map_app, !app_length. cbn [map length]. lia.
        * rewrite <- (A3 ltac:(discriminate)). good; [exact NF|exists e; split; [exact E|]; rewrite EV0, EA; reflexivity|]. fields; [|apply IO].
          eapply cell_back; [exact I|exact E|]. split; [exact HV|]. split; [reflexivity|]. split; [exact HN|]. exists r.
          rewrite map_app, <- app_assoc. split; [reflexivity|]. rewrite EV0, app_assoc, <- map_app, <- HA. exact HM.
        * rewrite <- (A3 ltac:(discriminate)). good; [exact NF|exists e; split; [exact E|]; rewrite EV0, EA; reflexivity|]. fields; [|apply IO].
          eapply cell_back; [exact I|exact E|]. split; [exact HV|]. split; [reflexivity|]. split; [exact HN|]. exists r.
          rewrite map_app, <- app_assoc. split; [reflexivity|]. rewrite EV0, app_assoc, <- map_app, <- HA. exact HM.
        * exfalso. clear - EA. unfold add_answer in EA. destruct (_ <=? _)%nat; [discriminate|]. destruct (in_dec _ _ _); discriminate.
        * exfalso. clear - EA. unfold add_answer in EA. destruct (_ <=? _)%nat; [discriminate|]. destruct (in_dec _ _ _); discriminate.
        * exfalso. clear - EA. unfold add_answer in EA. destruct (_ <=? _)%nat; [discriminate|]. destruct (in_dec _ _ _); discriminate.
    - destruct (y_cell w s) as [x|] eqn:ES; cbn [yneed ybind].
      2: { left. split; [|reflexivity]. left. apply (cell_none _ _ _ _ I ES). }
      destruct (cell_some _ _ _ _ _ I ES) as (e & E & HV & HC & HN & r & HA & HM).
      destruct (y_obs w o) as [v|] eqn:EO; cbn [yneed ybind].
      2: { left. split; [|reflexivity]. right. rewrite <- IO. exact EO. }
      assert (NF : ~ yfault (booked (y_log w)) (booked (y_log w)) 0 (YRemove s o)).
      { cbn [VLifeSpec.yfault]. rewrite E, <- IO, EO. intros [X|X]; discriminate. }
      destruct (vector Max s) eqn:EV0.
      + destruct HM as [HO ->]. rewrite HO, app_nil_r in HA. rewrite app_nil_r in HA.
        destruct (Nat.eqb_spec (y_cnt x) 0) as [Z0|NZ].
        * good; [exact NF|exists e; split; [exact E|]; unfold remove_answer; destruct (e_regs e); [reflexivity|cbn [length] in *; lia]|]. apply yinv_still; [exact I|exact Logic.I].
        * pose proof (remove_tail (e_regs e) [] o) as HR. rewrite !app_nil_r in HR. rewrite HA, HC, HR. cbn [ylift ybind].
          assert (NEW : cell_ok Max s (Some (YCell (y_val x) (map Some (without o (e_regs e) ++ tail_left o (e_regs e)))
                                              (length (e_regs e)) (y_ver x)))
                          (Some (Entry (e_val e) (without o (e_regs e) ++ tail_left o (e_regs e)) (e_old e) (e_since e)))).
          { split; [exact HV|]. split; [symmetry; apply rest_length|]. split; [exact HN|]. exists []. cbn [e_regs e_old y_arr].
            rewrite HO, !app_nil_r, EV0. split; [reflexivity|]. split; reflexivity. }
          destruct (Nat.eqb_spec (length (without o (e_regs e))) (length (e_regs e))) as [EQ|NE]; cbn [negb].
          -- assert (NIN : ~ In o (e_regs e)) by (apply remove_length_eq; exact EQ).
             good; [exact NF|exists e; split; [exact E|]; unfold remove_answer; destruct (in_dec Pos.eq_dec o (e_regs e)); [exfalso; revert NIN; tauto|reflexivity]|]. fields; [|apply IO]. eapply cell_back; [exact I|exact E|].
             assert (HI : ~ In o (e_regs e)) by (apply remove_length_eq; exact EQ).
             unfold tail_left in NEW. unfold without in NEW at 1 2 3 4. unfold tail_left.
             assert (EW : without o (e_regs e) = e_regs e) by (apply remove_notin, HI).
             assert (ER : without o (e_regs e) ++ skipn (length (without o (e_regs e))) (e_regs e) = e_regs e)
               by (rewrite EW, skipn_all, app_nil_r; reflexivity).
             change (remove Pos.eq_dec o (e_regs e)) with (without o (e_regs e)) in NEW. rewrite ER in NEW |- *.
             destruct e as [ev er eo es]. exact NEW.
          -- good; [exact NF|exists e; split; [exact E|]; unfold remove_answer; destruct (in_dec Pos.eq_dec o (e_regs e)) as [|HNI]; [reflexivity|exfalso; pose proof (remove_notin o _ HNI); unfold without in *; congruence || (replace (remove Pos.eq_dec o (e_regs e)) with (e_regs e) in *; lia)]|]. fields; [|apply IO]. eapply cell_edit; [exact I|exact E|]. rewrite EV0. exact NEW.
      + assert (LE : (length (e_regs e) <= max_observers (Max s))%nat).
        { rewrite <- HM, HA, app_length, map_length, app_length. lia. }
        rewrite HA, map_app, <- app_assoc, HC. unfold remove_observer.
        replace (max_observers (Max s) <? length (e_regs e))%nat with false by lia.
        destruct (Nat.eqb_spec (length (e_regs e)) 0) as [Z0|NZ]; cbn [ylift ybind].
        * good; [exact NF|exists e; split; [exact E|]; unfold remove_answer; destruct (e_regs e); [reflexivity|cbn [length] in *; lia]|]. fields; [|apply IO]. eapply cell_back; [exact I|exact E|].
          split; [exact HV|]. split; [reflexivity|]. split; [exact HN|]. exists r.
          rewrite map_app, <- app_assoc. split; [reflexivity|]. rewrite EV0, app_assoc, <- map_app, <- HA. exact HM.
        * rewrite remove_tail. cbn [bind].
          destruct (Nat.eqb_spec (length (e_regs e) - length (without o (e_regs e))) 0) as [Z1|N1]; cbn [negb ylift ybind].
          -- assert (HI : ~ In o (e_regs e)).
             { intros HI. pose proof (remove_length_lt Pos.eq_dec (e_regs e) o HI) as HL. unfold without in Z1. lia. }
             pose proof HI as NIN. good; [exact NF|exists e; split; [exact E|]; unfold remove_answer; destruct (in_dec Pos.eq_dec o (e_regs e)); [exfalso; revert NIN; tauto|reflexivity]|]. fields; [|apply IO]. eapply cell_back; [exact I|exact E|].
             assert (EW : without o (e_regs e) = e_regs e) by (apply remove_notin, HI).
             assert (ET : tail_left o (e_regs e) = []) by (unfold tail_left; rewrite EW; apply skipn_all).
             split; [exact HV|]. split; [reflexivity|]. split; [exact HN|]. exists r. cbn [y_arr].
             rewrite EW, ET, app_nil_r, EV0, map_app, <- app_assoc. split; [reflexivity|].
             rewrite app_assoc, <- map_app, <- HA. exact HM.
          -- good; [exact NF|exists e; split; [exact E|]; unfold remove_answer; destruct (in_dec Pos.eq_dec o (e_regs e)) as [|HNI]; [reflexivity|exfalso; pose proof (remove_notin o _ HNI); unfold without in *; congruence || (replace (remove Pos.eq_dec o (e_regs e)) with (e_regs e) in *; lia)]|]. fields; [|apply IO]. eapply cell_edit; [exact I|exact E|]. rewrite EV0.
             cbn [cell_ok e_val e_regs e_old e_since y_val y_arr y_cnt y_ver].
             split; [exact HV|]. split; [reflexivity|]. split; [exact HN|]. exists r. rewrite EV0.
             rewrite (app_assoc (without o _) (tail_left o _) (e_old e)), (map_app Some _ (e_old e)), <- (app_assoc _ _ r). split; [reflexivity|].
             pose proof (rest_length o (e_regs e)) as RL. rewrite app_length in RL.
             rewrite <- HM, HA, !app_length, !map_length, !app_length. lia.
    - destruct (y_cell w s) as [x|] eqn:ES; cbn [yneed ybind].
      + good.
        * cbn [VLifeSpec.yfault]. destruct (cell_some _ _ _ _ _ I ES) as (e & E & _). rewrite E. discriminate.
        * destruct (cell_some _ _ _ _ _ I ES) as (e & E & HV & _). exists e. rewrite HV. split; [exact E|reflexivity].
        * apply yinv_still; [exact I|exact Logic.I].
      + left. split; [|reflexivity]. apply (cell_none _ _ _ _ I ES).
    - destruct (y_obs w o) as [v|] eqn:EO; cbn [yneed ybind].
      + good.
        * cbn [VLifeSpec.yfault]. rewrite <- IO, EO. discriminate.
        * exists v. split; [rewrite <- IO; exact EO|reflexivity].
        * apply yinv_still; [exact I|exact Logic.I].
      + left. split; [|reflexivity]. cbn [VLifeSpec.yfault]. rewrite <- IO. exact EO.
  Qed.

  (** ** going on *)
  Lemma snoc_split {A} (l : list A) e a x b : l ++ [e] = a ++ x :: b ->
    (b = [] /\ l = a /\ e = x) \/ exists b', b = b' ++ [e] /\ l = a ++ x :: b'.
  Proof.
    intros E. destruct (exists_last (l := x :: b)) as (q & z & EQ); [discriminate|].
    rewrite EQ, app_assoc in E. apply app_inj_tail in E. destruct E as [EL <-].
    destruct q as [|y q]; cbn [app] in EQ; injection EQ as -> ->.
    - left. rewrite app_nil_r in EL. auto.
    - right. exists q. auto.
  Qed.
  Lemma fair_other l e : yfair l -> ~ own e -> yfair (l ++ [e]).
  Proof.
    intros F NO before c since e' after E FS O.
    change (before ++ YBegin c :: since ++ e' :: after) with (before ++ (YBegin c :: since) ++ e' :: after) in E.
    rewrite app_assoc in E. destruct (snoc_split _ _ _ _ _ E) as [(_ & _ & ->)|(b' & -> & EL)]; [contradiction|].
    rewrite <- app_assoc in EL. cbn [app] in EL. eapply F; eassumption.
  Qed.
  Lemma fair_own before c since e : yfair (before ++ YBegin c :: since) -> yfinished since ->
    goes_on ty Max (booked before) (booked (before ++ YBegin c :: since)) (rounds 0 since) c e ->
    yfair ((before ++ YBegin c :: since) ++ [e]).
  Proof.
    intros F FS G before1 c1 since1 e1 after1 E FS1 O.
    change (before1 ++ YBegin c1 :: since1 ++ e1 :: after1) with (before1 ++ (YBegin c1 :: since1) ++ e1 :: after1) in E.
    rewrite (app_assoc before1) in E. destruct (snoc_split _ _ _ _ _ E) as [(_ & EL & ->)|(b' & -> & EL)].
    - destruct (innermost_unique _ _ _ _ _ _ FS FS1 EL) as (<- & <- & <-). exact G.
    - rewrite <- app_assoc in EL. cbn [app] in EL. eapply F; eassumption.
  Qed.
  Definition alive (b : ybook) (e : yev) : Prop :=
    match e with
    | YRet (YAdd s o) r => obd_at b o <> None /\ (r = RErr ok -> vector Max s = false ->
        exists x, obl_at b s = Some x /\ ~ In o (e_regs x) /\ (length (e_regs x) < max_observers (Max s))%nat)
    | YStore s o _ | YDisc s o => obd_at b o <> None /\ exists x, obl_at b s = Some x /\ In o (e_regs x ++ e_old x)
    | _ => True
    end.
  Definition valid (log : list yev) : Prop :=
    forall before e after, log = before ++ e :: after -> alive (booked before) e.
  Lemma valid_lives log : valid log -> lives log.
  Proof. intros H before e after E. pose proof (H before e after E) as A. destruct e; try exact Logic.I; exact A. Qed.
  Lemma valid_snoc l e : valid l -> alive (booked l) e -> valid (l ++ [e]).
  Proof.
    intros H A before e' after E. destruct (snoc_split _ _ _ _ _ E) as [(_ & -> & ->)|(b' & -> & EL)].
    - exact A.
    - eapply H, EL.
  Qed.

  (** ** the invariant of runs *)
  Definition yok (w : yworld) : Prop := yinv w /\ yfair (y_log w) /\ valid (y_log w).
  Definition ubok (log : list yev) : Prop := ystuck log /\ yfair log /\ valid log.
  Definition ysafe (w : yworld) (x : yres yworld) : Prop :=
    match x with
    | YOk w' => yok w' /\ exists evs, y_log w' = y_log w ++ evs /\ yfinished evs /\ rounds 0 evs = 0%nat
    | YUB log => ubok log
    | YFuel => True
    end.
  Lemma ysafe_refl w : yok w -> ysafe w (YOk w).
  Proof. intros I. split; [exact I|]. exists []. rewrite app_nil_r. split; [reflexivity|]. split; [constructor|reflexivity]. Qed.
  Lemma yok_still w e : yok w -> still e -> ~ own e -> alive (booked (y_log w)) e -> yok (yemit w e).
  Proof.
    intros (I & F & L) Q NO A. split; [apply yinv_still; assumption|]. cbn [yemit y_log].
    split; [apply fair_other; assumption|apply valid_snoc; assumption].
  Qed.

  Definition inside (before : list yev) (c : ycall) (w : yworld) (i : nat) : Prop :=
    exists since, y_log w = before ++ YBegin c :: since /\ yfinished since /\ rounds 0 since = i.
  Lemma stuck_here before c w i : yok w -> inside before c w i -> yfault (booked before) (booked (y_log w)) i c -> ubok (y_log w).
  Proof.
    intros (_ & F & L) (since & E & FS & R) HF. split; [|split; assumption]. exists before, c, since. subst i. split; [exact E|]. split; [exact FS|exact HF].
  Qed.
  Lemma inside_more before c w w1 i evs : inside before c w i -> y_log w1 = y_log w ++ evs -> yfinished evs ->
    inside before c w1 (i + rounds 0 evs).
  Proof.
    intros (since & E & F & R) H F2. exists (since ++ evs). rewrite H, E, <- app_assoc. cbn [app].
    split; [reflexivity|]. split; [apply yfinished_app; assumption|]. rewrite rounds_app by exact F. lia.
  Qed.

  Section Step.
    Variable step : yworld -> ycall -> yres yworld.
    Hypothesis step_safe : forall w c, yok w -> ysafe w (step w c).

    Lemma ybody_safe b : forall w, yok w -> ysafe w (ybody_run step b w).
    Proof.
      induction b as [|c k IH]; intros w K; cbn [ybody_run]; [apply ysafe_refl, K|].
      pose proof (step_safe w c K) as HS. destruct (step w c) as [w1|log|]; cbn [ybind]; [|exact HS|exact Logic.I].
      destruct HS as (K1 & e1 & L1 & F1 & R1). pose proof (IH (y_log w1) w1 K1) as HB.
      destruct (ybody_run step (k (y_log w1)) w1) as [w2|log|]; [|exact HB|exact Logic.I].
      destruct HB as (K2 & e2 & L2 & F2 & R2). split; [exact K2|]. exists (e1 ++ e2).
      rewrite L2, L1, app_assoc. split; [reflexivity|]. split; [apply yfinished_app; assumption|].
      rewrite rounds_app by exact F1. rewrite R1, R2. reflexivity.
    Qed.

    (** The call a loop belongs to. *)
    Variable before : list yev.
    Variable c : ycall.
    Variable s : addr.
    Variable x0 : entry.
    Hypothesis begun : obl_at (booked before) s = Some x0.
    Hypothesis bad : forall b i, replaced (booked before) b s \/ dangling (booked before) b s i -> yfault (booked before) b i c.
    Hypothesis fine : forall b i, ~ replaced (booked before) b s -> ~ dangling (booked before) b s i -> ~ yfault (booked before) b i c.
    Variable enter : yworld -> addr -> yworld.
    Variable ev : addr -> yev.
    Hypothesis enter_inv : forall w o, yinv w -> y_obs w o <> None -> yinv (enter w o).
    Hypothesis enter_log : forall w o, y_log (enter w o) = y_log w ++ [ev o].
    Hypothesis ev_fin : forall o, yfinished [ev o] /\ rounds 0 [ev o] = 1%nat.
    Hypothesis ev_alive : forall b o, obd_at b o <> None -> (exists x, obl_at b s = Some x /\ In o (e_regs x ++ e_old x)) ->
      alive b (ev o).
    Hypothesis ev_goes : forall b i o, ~ yfault (booked before) b i c -> next_is (booked before) b s i o ->
      goes_on ty Max (booked before) b i c (ev o).
    Variable cb : list yev -> addr -> ybody.

    Definition same (w : yworld) : Prop :=
      exists y, obl_at (booked (y_log w)) s = Some y /\ e_since y = e_since x0.
    Definition lsafe (x : yres yworld) : Prop :=
      match x with
      | YOk w' => yok w' /\ inside before c w' (length (e_regs x0)) /\ same w'
      | YUB log => ubok log
      | YFuel => True
      end.

    Lemma yloop_safe k : forall i w, yok w -> inside before c w i -> same w -> (i + k = length (e_regs x0))%nat ->
      lsafe (yloop enter cb step s (e_since x0) i k w).
    Proof.
      induction k as [|k IH]; intros i w K N SM L; cbn [yloop].
      { cbn [lsafe]. split; [exact K|]. split; [|exact SM]. replace (length (e_regs x0)) with i by lia. exact N. }
      pose proof K as (I & F & LV). destruct SM as (y & EY & ES).
      assert (NR : ~ replaced (booked before) (booked (y_log w)) s).
      { unfold replaced. rewrite begun, EY. lia. }
      destruct (y_cell w s) as [x|] eqn:EX; cbn [yneed ybind].
      2: { rewrite (cell_none _ _ _ _ I EX) in EY. discriminate. }
      destruct (cell_some _ _ _ _ _ I EX) as (y' & EY' & HV & HC & HN & r & HA & HM).
      rewrite EY in EY'. injection EY' as <-.
      assert (LY : (i < length (e_regs y ++ e_old y))%nat).
      { destruct N as (since & E & _). assert (EYL := EY). rewrite E in EYL.
        pose proof (same_longer ty Max before (YBegin c :: since) s x0 y begun EYL (eq_sym ES)) as LL.
        rewrite app_length in LL. lia. }
      destruct (nth_error (e_regs y ++ e_old y) i) as [o|] eqn:EO; [|apply nth_error_None in EO; lia].
      assert (SL : slot (y_arr x) i = Ok (Some o)).
      { rewrite HA. unfold slot. rewrite nth_error_app1 by (rewrite map_length; exact LY).
        rewrite nth_error_map, EO. reflexivity. }
      rewrite SL. cbn [ylift ybind yneed].
      destruct (y_obs w o) as [v|] eqn:EV; cbn [yneed ybind].
      2: { cbn [lsafe]. eapply stuck_here; [exact K|exact N|]. apply bad. right.
           exists x0, y, o. split; [exact begun|]. split; [exact EY|]. split; [lia|]. split; [exact EO|].
           rewrite <- (yi_obs ty Max w I). exact EV. }
      assert (OD : obd_at (booked (y_log w)) o <> None) by (rewrite <- (yi_obs ty Max w I), EV; discriminate).
      assert (ND : ~ dangling (booked before) (booked (y_log w)) s i).
      { intros (x1 & y1 & o1 & D1 & D2 & D3 & D4 & D5). rewrite EY in D2. injection D2 as <-. congruence. }
      assert (NX : next_is (booked before) (booked (y_log w)) s i o).
      { split; [exists x0; split; [exact begun|lia]|]. split; [exists y; split; assumption|exact OD]. }
      destruct (ev_fin o) as [EF ER].
      assert (K1 : yok (enter w o)).
      { split; [apply enter_inv; [exact I|congruence]|]. rewrite enter_log. split.
        - destruct N as (since & E & FS & R). assert (FF := F). rewrite E in FF |- *. subst i.
          apply fair_own; [exact FF|exact FS|]. rewrite <- E. apply ev_goes; [apply fine; assumption|exact NX].
        - apply valid_snoc; [exact LV|]. apply ev_alive; [exact OD|]. exists y. split; [exact EY|].
          apply (nth_error_In _ _ EO). }
      pose proof (inside_more before c w (enter w o) i [ev o] N (enter_log w o) EF) as N1. rewrite ER in N1.
      pose proof (ybody_safe (cb (y_log w) o) (enter w o) K1) as HB.
      destruct (ybody_run step (cb (y_log w) o) (enter w o)) as [w1|log|]; cbn [ybind]; [|exact HB|exact Logic.I].
      destruct HB as (K2 & evs & L2 & F2 & R2).
      pose proof (inside_more before c (enter w o) w1 (i + 1) evs N1 L2 F2) as N2. rewrite R2, Nat.add_0_r in N2.
      unfold ysame. destruct (y_cell w1 s) as [x1|] eqn:EX1; cbn [yneed ybind].
      2: { cbn [lsafe]. eapply stuck_here; [exact K2|exact N2|]. apply bad. left. unfold replaced.
           rewrite begun, (cell_none _ _ _ _ (proj1 K2) EX1). exact Logic.I. }
      destruct (cell_some _ _ _ _ _ (proj1 K2) EX1) as (y1 & EY1 & _ & _ & HN1 & _).
      destruct (Nat.eqb_spec (y_ver x1) (e_since x0)) as [EVV|NVV]; cbn [ybind].
      - apply IH; [exact K2|replace (S i) with (i + 1)%nat by lia; exact N2| |lia]. exists y1. split; [exact EY1|congruence].
      - cbn [lsafe]. eapply stuck_here; [exact K2|exact N2|]. apply bad. left. unfold replaced. rewrite begun, EY1. congruence.
    Qed.
  End Step.

  (** ** the three loops *)
  Lemma store_inv w s o n : yinv w -> yinv (yemit (put_obs w o (Some n)) (YStore s o n)).
  Proof.
    intros I. split; [intros g1|intros a1]; cbn [yemit put_cell put_obs y_cell y_obs y_log]; rewrite ybooked_snoc;
      cbn [ybook_step obl_at obd_at]; [apply (yi_cell ty Max w I)|]. apply obs_put, (yi_obs ty Max w I).
  Qed.
  Lemma applied_inv w s x e op : yinv w -> y_cell w s = Some x -> obl_at (booked (y_log w)) s = Some e ->
    yinv (yemit (put_cell w s (Some (YCell (apply_atomic (ty s) (y_val x) op) (y_arr x) (y_cnt x) (y_ver x)))) (YApplied s op)).
  Proof.
    intros I EX E. pose proof (yi_cell ty Max w I s) as HC. rewrite EX, E in HC. destruct HC as (HV & HC & HN & HR).
    split; [intros g1|intros a1]; cbn [yemit put_cell put_obs y_cell y_obs y_log]; rewrite ybooked_snoc;
      cbn [ybook_step obl_at obd_at]; [|apply (yi_obs ty Max w I)].
    eapply cell_edit; [exact I|exact E|]. split; [|split; [exact HC|split; [exact HN|exact HR]]].
    cbn [y_val e_val]. rewrite <- HV. apply apply_math, T.
  Qed.
  Lemma publishes_it s x op p : published (ty s) x op = Ok p -> publishes ty s x op p.
  Proof.
    intros E. destruct op; cbn [publishes].
    all: try (rewrite <- apply_math by apply T; apply published_faithful; [apply T|reflexivity|exact E]).
    all: try (cbn [published] in E; injection E as <-; reflexivity).
    apply published_predec; [apply T|exact E].
  Qed.

  Section Loops.
    Variable step : yworld -> ycall -> yres yworld.
    Hypothesis step_safe : forall w c, yok w -> ysafe w (step w c).
    Variable before : list yev.
    Variable s : addr.
    Variable x0 : entry.
    Hypothesis begun : obl_at (booked before) s = Some x0.

    Lemma disc_safe c w : (c = YClear s \/ c = YEnd s) -> yok w -> inside before c w 0 -> same s x0 w ->
      lsafe before c s x0 (yloop (fun w o => yemit w (YDisc s o)) disc step s (e_since x0) 0 (length (e_regs x0)) w).
    Proof.
      intros HC K N SM. apply (yloop_safe step step_safe before c s x0 begun) with (ev := fun o => YDisc s o).
      - intros b i H. destruct HC as [->| ->]; exact H.
      - intros b i H1 H2. destruct HC as [->| ->]; intros [H|H]; contradiction.
      - intros w1 o I1 _. apply yinv_still; [exact I1|exact Logic.I].
      - reflexivity.
      - intros o. split; [repeat constructor|reflexivity].
      - intros b o HO HX. split; assumption.
      - intros b i o NF NX. split; [exact NF|]. split; [exact NX|]. destruct HC as [->| ->]; reflexivity.
      - exact K.
      - exact N.
      - exact SM.
      - reflexivity.
    Qed.
    Lemma store_safe c v w :
      match c with
      | YNotify s' n => s' = s /\ v = conv (ty s) n
      | YOp s' op => s' = s /\ publishes ty s (e_val x0) op v /\ ~ overflows (ty s) (e_val x0) op
      | _ => False
      end -> yok w -> inside before c w 0 -> same s x0 w ->
      lsafe before c s x0 (yloop (fun w o => yemit (put_obs w o (Some v)) (YStore s o v)) (fun log o => upd log o v)
                             step s (e_since x0) 0 (length (e_regs x0)) w).
    Proof.
      intros HC K N SM. apply (yloop_safe step step_safe before c s x0 begun) with (ev := fun o => YStore s o v).
      - intros b i H. destruct c as [| | | | | | |s' n|s' op| |]; try contradiction; destruct HC as [-> HC]; cbn [VLifeSpec.yfault]; tauto.
      - intros b i H1 H2. destruct c as [| | | | | | |s' n|s' op| |]; try contradiction; destruct HC as [-> HC];
          cbn [VLifeSpec.yfault]; [tauto|]. intros [H|[H|(x & EX & HO)]]; [contradiction|contradiction|].
        rewrite begun in EX. injection EX as <-. apply HC, HO.
      - intros w1 o I1 _. apply store_inv, I1.
      - reflexivity.
      - intros o. split; [repeat constructor|reflexivity].
      - intros b o HO HX. split; assumption.
      - intros b i o NF NX. split; [exact NF|]. split; [exact NX|].
        destruct c as [| | | | | | |s' n|s' op| |]; try contradiction; destruct HC as [-> HC].
        + split; [reflexivity|assumption].
        + split; [reflexivity|]. exists x0. split; [assumption|apply HC].
      - exact K.
      - exact N.
      - exact SM.
      - reflexivity.
    Qed.
  End Loops.
  Lemma cnt_fits w s x e : yinv w -> y_cell w s = Some x -> obl_at (booked (y_log w)) s = Some e ->
    negb (vector Max s) && (max_observers (Max s) <? y_cnt x)%nat = false /\ y_cnt x = length (e_regs e) /\ y_ver x = e_since e.
  Proof.
    intros I EX E. pose proof (yi_cell ty Max w I s) as H. rewrite EX, E in H. destruct H as (_ & HC & HN & r & HA & HM).
    split; [|split; assumption]. destruct (vector Max s); cbn [negb andb]; [reflexivity|].
    rewrite HA, app_length, map_length, app_length in HM. lia.
  Qed.

  Lemma yrun_safe fuel : forall w c, yok w -> ysafe w (yrun fuel w c).
  Proof.
    induction fuel as [|f IH]; intros w c K; [exact Logic.I|]. cbn [VLifeModel.yrun].
    set (w0 := yemit w (YBegin c)).
    assert (K0 : yok w0) by (apply yok_still; [exact K|exact Logic.I|intros []|exact Logic.I]).
    destruct K as (I & F & L). pose proof K0 as (I0 & F0 & L0).
    assert (B0 : obl_at (booked (y_log w0)) = obl_at (booked (y_log w)) /\ obd_at (booked (y_log w0)) = obd_at (booked (y_log w))).
    { cbn [w0 yemit y_log]. rewrite ybooked_snoc. apply step_still. exact Logic.I. }
    destruct B0 as [BL BD].
    assert (N0 : inside (y_log w) c w0 0) by (exists []; split; [reflexivity|]; split; [constructor|reflexivity]).
    (* the end of a call *)
    assert (DONE : forall w1 r i, yfair (y_log w1) -> valid (y_log w1) -> inside (y_log w) c w1 i ->
              yinv (yemit w1 (YRet c r)) -> ~ yfault (booked (y_log w)) (booked (y_log w1)) i c ->
              yanswer ty Max (booked (y_log w)) (booked (y_log w1)) c r ->
              match c with YNotify s _ | YOp s _ | YClear s | YEnd s => all_done (booked (y_log w)) s i | _ => i = O end ->
              ysafe w (YOk (yemit w1 (YRet c r)))).
    { intros w1 r i F1 L1 (since & E & FS & R) IR NF AN AD. split.
      - split; [exact IR|]. cbn [yemit y_log]. split.
        + rewrite E in F1 |- *. apply fair_own; [exact F1|exact FS|]. subst i. rewrite <- E.
          split; [exact NF|]. split; [reflexivity|]. split; [exact AN|exact AD].
        + apply valid_snoc; [exact L1|]. cbn [alive]. destruct c; try exact Logic.I. split.
          { intros HN. apply NF. right. exact HN. }
          intros -> EV. destruct AN as (x & EX & ER). rewrite EV in ER. exists x. split; [exact EX|].
          unfold add_answer in ER. destruct (max_observers (Max s) <=? length (e_regs x))%nat eqn:EC; [discriminate|].
          apply Nat.leb_gt in EC. destruct (in_dec Pos.eq_dec o (e_regs x)); [discriminate|]. split; assumption.
      - exists (YBegin c :: since ++ [YRet c r]). cbn [yemit y_log]. rewrite E, <- app_assoc. split; [reflexivity|].
        apply yfinished_call, FS. }
    assert (STUCK : yfault (booked (y_log w)) (booked (y_log w0)) 0 c -> ubok (y_log w0)).
    { intros HF. eapply stuck_here; [exact K0|exact N0|exact HF]. }
    assert (FEQ : ~ loops c -> forall b0 i, yfault b0 (booked (y_log w0)) i c <-> yfault (booked (y_log w0)) (booked (y_log w0)) i c).
    { intros NL b0 i. destruct c; try (exfalso; apply NL; exact Logic.I); reflexivity. }
    assert (REST : ~ loops c -> ysafe w (ybind (ydo ty Max upd disc (yrun f) w0 c) (fun '(w1, r) => YOk (yemit w1 (YRet c r))))).
    { intros NL. destruct (ydo_agrees (yrun f) w0 c I0 NL) as [[HF ->]|(NF & w1 & r & -> & EL & AN & IR)]; cbn [ybind].
      - apply STUCK, FEQ; [exact NL|exact HF].
      - apply (DONE w1 r 0%nat).
        + rewrite EL. exact F0.
        + rewrite EL. exact L0.
        + destruct N0 as (since & E & X). exists since. rewrite EL. split; assumption.
        + exact IR.
        + rewrite EL. intros HF. apply NF, (FEQ NL (booked (y_log w)) 0%nat), HF.
        + rewrite EL. destruct c; try exact AN; exfalso; apply NL; exact Logic.I.
        + destruct c; try reflexivity; exfalso; apply NL; exact Logic.I. }
    (* the loops *)
    assert (CELL : forall s x, y_cell w0 s = Some x -> exists e, obl_at (booked (y_log w)) s = Some e /\
              obl_at (booked (y_log w0)) s = Some e).
    { intros s x EX. destruct (cell_some _ _ _ _ _ I0 EX) as (e & E & _). exists e. rewrite <- BL. split; exact E. }
    assert (GONE : forall s, y_cell w0 s = None -> replaced (booked (y_log w)) (booked (y_log w0)) s).
    { intros s EX. unfold replaced. rewrite (cell_none _ _ _ _ I0 EX). destruct (obl_at (booked (y_log w)) s); exact Logic.I. }
    assert (OVER : forall s e w1, obl_at (booked (y_log w)) s = Some e -> same s e w1 ->
              ~ replaced (booked (y_log w)) (booked (y_log w1)) s /\
              ~ dangling (booked (y_log w)) (booked (y_log w1)) s (length (e_regs e))).
    { intros s e w1 E (y & EY & ES). split.
      - unfold replaced. rewrite E, EY. congruence.
      - intros (x & y1 & o & D1 & _ & D3 & _). rewrite E in D1. injection D1 as <-. lia. }
    destruct c as [s|s|o|o|s o|s o|s|s n|s op|s|o].
    all: try solve [apply REST; intros []].
    - (* ~observable *)
      cbn [ydo]. unfold ydisconnect. destruct (y_cell w0 s) as [x|] eqn:EX; cbn [yneed ybind].
      2: { change (ubok (y_log w0)). apply STUCK. cbn [VLifeSpec.yfault]. left. apply GONE, EX. }
      destruct (CELL s x EX) as (e & E & E0). destruct (cnt_fits w0 s x e I0 EX E0) as (_ & -> & ->).
      pose proof (disc_safe (yrun f) IH (y_log w) s e E (YEnd s) w0 (or_intror eq_refl) K0 N0
                    (ex_intro _ e (conj E0 eq_refl))) as HL.
      destruct (yloop _ disc (yrun f) s (e_since e) 0 (length (e_regs e)) w0) as [w1|log|]; cbn [ybind]; [|exact HL|exact Logic.I].
      destruct HL as (K1 & N1 & SM). pose proof (OVER s e w1 E SM) as [O1 O2]. destruct SM as (y & EY & ES).
      destruct (y_cell w1 s) as [x1|] eqn:EX1; cbn [yneed ybind].
      2: { rewrite (cell_none _ _ _ _ (proj1 K1) EX1) in EY. discriminate. }
      apply (DONE (put_cell w1 s None) RUnit (length (e_regs e))); [apply K1|apply K1|exact N1| | | |exists e; split; [exact E|reflexivity]].
      + split; [intros g1|intros a1]; cbn [yemit put_cell put_obs y_cell y_obs y_log]; rewrite ybooked_snoc;
          cbn [ybook_step obl_at obd_at]; [|apply (yi_obs ty Max w1 (proj1 K1))].
        apply cell_put; [apply (yi_cell ty Max w1 (proj1 K1))|exact Logic.I].
      + intros [H|H]; contradiction.
      + reflexivity.
    - (* clear_observers *)
      cbn [ydo]. unfold ydisconnect. destruct (y_cell w0 s) as [x|] eqn:EX; cbn [yneed ybind].
      2: { change (ubok (y_log w0)). apply STUCK. cbn [VLifeSpec.yfault]. left. apply GONE, EX. }
      destruct (CELL s x EX) as (e & E & E0). destruct (cnt_fits w0 s x e I0 EX E0) as (_ & -> & ->).
      pose proof (disc_safe (yrun f) IH (y_log w) s e E (YClear s) w0 (or_introl eq_refl) K0 N0
                    (ex_intro _ e (conj E0 eq_refl))) as HL.
      destruct (yloop _ disc (yrun f) s (e_since e) 0 (length (e_regs e)) w0) as [w1|log|]; cbn [ybind]; [|exact HL|exact Logic.I].
      destruct HL as (K1 & N1 & SM). pose proof (OVER s e w1 E SM) as [O1 O2]. destruct SM as (y & EY & ES).
      destruct (y_cell w1 s) as [x1|] eqn:EX1; cbn [yneed ybind].
      2: { rewrite (cell_none _ _ _ _ (proj1 K1) EX1) in EY. discriminate. }
      match goal with |- context[put_cell w1 s ?z] =>
        apply (DONE (put_cell w1 s z) RUnit (length (e_regs e))); [apply K1|apply K1|exact N1| | | |exists e; split; [exact E|reflexivity]] end.
      + pose proof (yi_cell ty Max w1 (proj1 K1) s) as HC. rewrite EX1, EY in HC. destruct HC as (HV & HC & HN & r & HA & HM).
        split; [intros g1|intros a1]; cbn [yemit put_cell put_obs y_cell y_obs y_log]; rewrite ybooked_snoc;
          cbn [ybook_step obl_at obd_at]; [|apply (yi_obs ty Max w1 (proj1 K1))].
        eapply cell_edit; [exact (proj1 K1)|exact EY|]. destruct (vector Max s) eqn:EV.
        * split; [exact HV|]. split; [reflexivity|]. split; [symmetry; apply events_length|]. exists []. rewrite EV.
          split; [reflexivity|]. split; reflexivity.
        * split; [exact HV|]. split; [reflexivity|]. split; [exact HN|]. exists r. rewrite EV. split; [exact HA|exact HM].
      + intros [H|H]; contradiction.
      + reflexivity.
    - (* notify_observers *)
      cbn [ydo]. unfold ynotify. destruct (y_cell w0 s) as [x|] eqn:EX; cbn [yneed ybind].
      2: { change (ubok (y_log w0)). apply STUCK. cbn [VLifeSpec.yfault]. left. apply GONE, EX. }
      destruct (CELL s x EX) as (e & E & E0). destruct (cnt_fits w0 s x e I0 EX E0) as (-> & -> & ->).
      pose proof (store_safe (yrun f) IH (y_log w) s e E (YNotify s n) (conv (ty s) n) w0 (conj eq_refl eq_refl) K0 N0
                    (ex_intro _ e (conj E0 eq_refl))) as HL.
      destruct (yloop _ _ (yrun f) s (e_since e) 0 (length (e_regs e)) w0) as [w1|log|]; cbn [ybind]; [|exact HL|exact Logic.I].
      destruct HL as (K1 & N1 & SM). pose proof (OVER s e w1 E SM) as [O1 O2].
      apply (DONE w1 (RErr ok) (length (e_regs e))); [apply K1|apply K1|exact N1| | | |exists e; split; [exact E|reflexivity]].
      + apply yinv_still; [apply K1|exact Logic.I].
      + intros [H|H]; contradiction.
      + reflexivity.
    - (* the operators *)
      cbn [ydo]. destruct (y_cell w0 s) as [x|] eqn:EX; cbn [yneed ybind].
      2: { change (ubok (y_log w0)). apply STUCK. cbn [VLifeSpec.yfault]. left. apply GONE, EX. }
      destruct (CELL s x EX) as (e & E & E0). destruct (cnt_fits w0 s x e I0 EX E0) as (_ & HC & HN).
      assert (HV : y_val x = e_val e).
      { pose proof (yi_cell ty Max w0 I0 s) as H. rewrite EX, E0 in H. apply H. }
      cbv zeta. set (wa := yemit (put_cell w0 s _) (YApplied s op)).
      assert (IA : yinv wa) by (eapply applied_inv; eassumption).
      assert (KA : yok wa).
      { split; [exact IA|]. cbn [wa yemit put_cell y_log]. split; [apply fair_other; [exact F0|intros []]|].
        apply valid_snoc; [exact L0|exact Logic.I]. }
      assert (NA : inside (y_log w) (YOp s op) wa 0).
      { exists [YApplied s op]. cbn [wa yemit put_cell y_log]. cbn [w0 yemit y_log]. rewrite <- app_assoc.
        split; [reflexivity|]. split; [repeat constructor|reflexivity]. }
      assert (SA : same s e wa).
      { exists (Entry (conv (ty s) (math (e_val e) op)) (e_regs e) (e_old e) (e_since e)). split; [|reflexivity].
        cbn [wa yemit put_cell y_log]. rewrite ybooked_snoc. cbn [ybook_step obl_at]. unfold on_entry. rewrite E0. unfold yset.
        destruct (Pos.eq_dec s s); [reflexivity|congruence]. }
      destruct (published_ub (ty s) (y_val x) op) as [PU PF].
      destruct (published (ty s) (y_val x) op) as [p| |] eqn:EP; cbn [ylift ybind]; [| |congruence].
      2: { eapply stuck_here; [exact KA|exact NA|]. right. right. exists e. split; [exact E|]. rewrite <- HV. apply PU. reflexivity. }
      unfold ynotify. cbn [wa yemit put_cell y_cell]. unfold yput at 1. rewrite Pos.eqb_refl. cbn [yneed ybind y_cnt y_ver].
      destruct (cnt_fits w0 s x e I0 EX E0) as (-> & _ & _). rewrite HC, HN.
      assert (HP : s = s /\ publishes ty s (e_val e) op p /\ ~ overflows (ty s) (e_val e) op).
      { split; [reflexivity|]. rewrite <- HV. split; [apply publishes_it, EP|]. intros HO. apply PU in HO. discriminate. }
      pose proof (store_safe (yrun f) IH (y_log w) s e E (YOp s op) p wa HP KA NA SA) as HL. unfold wa in HL at 1.
      destruct (yloop _ _ (yrun f) s (e_since e) 0 (length (e_regs e)) _) as [w1|log|]; cbn [ybind]; [|exact HL|exact Logic.I].
      destruct HL as (K1 & N1 & SM). pose proof (OVER s e w1 E SM) as [O1 O2].
      apply (DONE w1 (RVal p) (length (e_regs e))); [apply K1|apply K1|exact N1| | | |exists e; split; [exact E|reflexivity]].
      + apply yinv_still; [apply K1|exact Logic.I].
      + intros [H|[H|(x1 & EX1 & HO)]]; [contradiction|contradiction|]. rewrite E in EX1. injection EX1 as <-. tauto.
      + exists e, p. split; [exact E|]. split; [apply HP|reflexivity].
  Qed.

  Lemma yrun_all_safe fuel cs : forall w, yok w ->
    match yrun_all ty Max upd disc fuel w cs with YOk w' => yok w' | YUB log => ubok log | YFuel => True end.
  Proof.
    induction cs as [|c cs IH]; intros w K; cbn [yrun_all]; [exact K|].
    pose proof (yrun_safe fuel w c K) as HS.
    destruct (yrun fuel w c) as [w1|log|]; cbn [ybind]; [|exact HS|exact Logic.I]. apply IH, HS.
  Qed.
  Lemma yok_fresh : yok yfresh.
  Proof.
    split; [apply yinv_fresh|]. split.
    - intros before c since e after E. destruct before; discriminate.
    - intros before e after E. destruct before; discriminate.
  Qed.
End Run.
