(** Several timers: functions that stop each other in a circle, and one timer stopped by two threads. *)
From Verif Require Export TimersProofs3.
Local Open Scope nat_scope.

Section Dead.
  Variables N M : nat.
  Variable func : list tev -> nat -> list nat.
  Notation tstep := (tstep N M func).
  Notation trun := (trun N M func).
  Notation tmove := (tmove N M func).
  Notation can := (can N M).

  Definition agent (t : tid) : tagent := match t with Worker m => TWork m false (Outside 0) | Outside k => TOut k end.
  Lemma agent_step w t : can w t -> ~ (t_act w t = AIdle /\ t_todo w t = []) -> tstep w (agent t) = thread_step w t.
  Proof.
    destruct t as [m|k]; cbn [TimersProofs1.can agent TimersModel.tstep]; intros C NI.
    - destruct C as [L P]. rewrite (proj2 (Nat.ltb_lt m N) L). unfold worker_step. rewrite P.
      destruct (t_act w (Worker m)); try reflexivity. destruct (t_todo w (Worker m)); [exfalso; apply NI; auto|reflexivity].
    - rewrite (proj2 (Nat.ltb_lt k M) C). reflexivity.
  Qed.
  (** Two turns of a thread about to stop a timer nobody stopped yet. *)
  Lemma two_turns w t x rest : can w t -> t_act w t = AIdle -> t_todo w t = x :: rest -> t_stop (t_timer w x) = false ->
    trun w [agent t; agent t] =
    put_act (put_timer (put_act (put_todo w t rest) t (AClear x)) x (flagged (t_timer w x) false)) t (AWait x).
  Proof.
    intros C A T S0. unfold TimersModel.trun. cbn [fold_left].
    rewrite (agent_step w t) by (try exact C; intros [_ E]; congruence).
    unfold thread_step. rewrite A, T, S0. cbv zeta.
    rewrite agent_step.
    - unfold thread_step. unput. rewrite tid_eqb_refl. reflexivity.
    - destruct t as [m|k]; exact C.
    - unput. rewrite tid_eqb_refl. intros [E _]. discriminate.
  Qed.
  Lemma one_turn w t x rest : can w t -> t_act w t = AIdle -> t_todo w t = x :: rest -> t_stop (t_timer w x) = false ->
    tstep w (agent t) = put_act (put_todo w t rest) t (AClear x).
  Proof.
    intros C A T S0. rewrite agent_step by (try exact C; intros [_ E]; congruence).
    unfold thread_step. rewrite A, T, S0. reflexivity.
  Qed.
  Lemma clear_turn w t x : can w t -> t_act w t = AClear x ->
    tstep w (agent t) = put_act (put_timer w x (flagged (t_timer w x) false)) t (AWait x).
  Proof. intros C A. rewrite agent_step by (try exact C; intros [E _]; congruence). unfold thread_step. rewrite A. reflexivity. Qed.

  (** ** a circle *)
  Variable circle : list nat.
  Variable next : nat -> nat.
  Definition stuck (w : tworld) (m : nat) : Prop := waits w (Worker m) (next m) /\ t_flag (t_timer w (next m)) = false.
  Definition ring (w : tworld) : Prop := forall m, In m circle -> t_pc (t_timer w m) = TCall /\ stuck w m.
  Hypothesis NX : forall m, In m circle -> In (next m) circle.
  Lemma ring_move w mv w' : ring w -> tmove w mv w' -> ring w'.
  Proof.
    intros RG Mv m HM. destruct (RG m HM) as [P [W F]]. destruct (RG (next m) (NX m HM)) as [P2 _].
    assert (EP : t_pc (t_timer w' m) = TCall).
    { destruct (timer_move N M func w mv w' m Mv) as [E|u _ U1 U2 E|u EM U1 E|_ T T2 E|_ T T2 E|pc EM2 E NO1 P1 P3 A PC|_ E T A1 A2|_ E T B]; try congruence.
      - rewrite E. exact P.
      - rewrite E. exact P.
      - exfalso. destruct (act_move N M func w mv w' (Worker m) Mv) as [E1|z rest E1 C A3 A4 A5 A6 A7|z E1 A3 A4 A5|z E1 A3 A4 A5|z E1 A3 A4 A5|z E1 A3 A4 A5|z A3 A4]; destruct W; congruence. }
    split; [exact EP|]. split.
    - unfold waits in *. destruct (act_move N M func w mv w' (Worker m) Mv) as [E1|z rest E1 C A3 A4 A5 A6 A7|z E1 A3 A4 A5|z E1 A3 A4 A5|z E1 A3 A4 A5|z E1 A3 A4 A5|z A3 A4].
      + rewrite E1. exact W.
      + destruct W; congruence.
      + destruct W; congruence.
      + exfalso. assert (z = next m) by (destruct W; congruence). congruence.
      + right. destruct W; congruence.
      + destruct W; congruence.
      + left. destruct W; congruence.
    - destruct (timer_move N M func w mv w' (next m) Mv) as [E|u _ U1 U2 E|u EM U1 E|_ T T2 E|_ T T2 E|pc EM2 E NO1 P1 P3 A PC|_ E T A1 A2|_ E T B]; try congruence; rewrite E; try exact F; reflexivity.
  Qed.
  Lemma waiting_silent w mv w' t x : tmove w mv w' -> waits w t x -> (forall m, t = Worker m -> t_pc (t_timer w m) = TCall) ->
    exists new, t_log w' = t_log w ++ new /\ Forall (silent t) new.
  Proof.
    intros Mv W P. destruct Mv; try (exists []; split; [unput; rewrite app_nil_r; reflexivity|constructor]); unput;
      eexists; (split; [reflexivity|]); constructor; try constructor; cbn [silent]; try exact Logic.I.
    - intros ->. destruct W; congruence.
    - intros ->. destruct W; congruence.
    - intros <-. destruct W; congruence.
  Qed.
  Lemma ring_run s : forall w, ring w -> ring (trun w s) /\
    (forall m, In m circle -> exists new, t_log (trun w s) = t_log w ++ new /\ Forall (silent (Worker m)) new).
  Proof.
    induction s as [|a s IH]; intros w RG.
    - split; [exact RG|]. intros m _. exists []. split; [symmetry; apply app_nil_r|constructor].
    - pose proof (tstep_moves N M func w a) as Mv. pose proof (ring_move w _ _ RG Mv) as RG1.
      destruct (IH _ RG1) as [R2 L2]. split; [exact R2|]. intros m HM.
      destruct (L2 m HM) as (n2 & E2 & Q2). destruct (RG m HM) as [P [W _]].
      destruct (waiting_silent w _ _ (Worker m) (next m) Mv W) as (n1 & E1 & Q1); [intros m0 E; injection E as <-; exact P|].
      exists (n1 ++ n2). split; [|apply Forall_app; split; assumption].
      change (trun w (a :: s)) with (trun (tstep w a) s). rewrite E2, E1, app_assoc. reflexivity.
  Qed.
  Lemma ring_forms todo done w : (forall m, In m circle <-> In m done \/ In m todo) -> NoDup (done ++ todo) ->
    (forall m, In m circle -> (m < N) /\ t_pc (t_timer w m) = TCall /\ t_stop (t_timer w m) = false) ->
    (forall m, In m done -> stuck w m) ->
    (forall m, In m todo -> t_act w (Worker m) = AIdle /\ exists rest, t_todo w (Worker m) = next m :: rest) ->
    ring (trun w (flat_map (fun m => [agent (Worker m); agent (Worker m)]) todo)).
  Proof.
    revert done w. induction todo as [|m todo IH]; intros done w HC ND HA HD HT.
    - intros m HM. split; [apply HA, HM|]. apply HD. apply HC in HM. destruct HM as [HM|[]]. exact HM.
    - cbn [flat_map]. rewrite trun_app.
      assert (HM : In m circle) by (apply HC; right; left; reflexivity).
      destruct (HA m HM) as (L & P & _). destruct (HT m (or_introl eq_refl)) as (A & rest & T).
      destruct (HA (next m) (NX m HM)) as (_ & _ & S0).
      rewrite (two_turns w (Worker m) (next m) rest (conj L P) A T S0).
      apply (IH (done ++ [m])).
      + intros z. rewrite HC, in_app_iff. cbn. tauto.
      + rewrite <- app_assoc. exact ND.
      + intros z HZ. destruct (HA z HZ) as (L1 & P1 & S1). unput. split; [exact L1|].
        destruct (Nat.eqb_spec z (next m)) as [->|NE]; [|split; assumption]. unput. split; assumption.
      + assert (NM : ~ In m done) by (intros H; apply NoDup_remove_2 in ND; apply ND, in_or_app; left; exact H).
        intros z HZ. apply in_app_or in HZ. unfold stuck, waits. unput. destruct HZ as [HZ|[<-|[]]].
        * destruct (HD z HZ) as [W F]. destruct (tid_eqb_spec (Worker z) (Worker m)) as [E|_]; [injection E as ->; contradiction|].
          split; [exact W|]. destruct (Nat.eqb_spec (next z) (next m)); unput; [reflexivity|exact F].
        * rewrite tid_eqb_refl, Nat.eqb_refl. unput. auto.
      + intros z HZ. assert (z <> m).
        { intros ->. apply NoDup_remove_2 in ND. apply ND, in_or_app. right. exact HZ. }
        unput. destruct (tid_eqb_spec (Worker z) (Worker m)) as [E|_]; [congruence|]. apply HT. right. exact HZ.
  Qed.
  Lemma circle_stuck w : ginv w -> NoDup circle ->
    (forall m, In m circle -> about_to_stop N M w (Worker m) (next m)) ->
    exists s, (forall a, In a s -> exists m, In m circle /\ mover a = Some (Worker m)) /\
      forall s', (forall m, In m circle -> exists new, t_log (trun w (s ++ s')) = t_log w ++ new /\ Forall (silent (Worker m)) new) /\
        forall m t, In m circle -> ~ In (EReturn t m) (t_log (trun w (s ++ s'))).
  Proof.
    intros G ND HA. set (s := flat_map (fun m => [agent (Worker m); agent (Worker m)]) circle). exists s. split.
    { intros a H. apply in_flat_map in H. destruct H as (m & HM & H). exists m. split; [exact HM|]. destruct H as [<-|[<-|[]]]; reflexivity. }
    assert (RG : ring (trun w s)).
    { apply (ring_forms circle []).
      - intros m. cbn. tauto.
      - exact ND.
      - intros m HM. destruct (HA m HM) as ((L & P) & _). split; [exact L|]. split; [exact P|].
        destruct (t_stop (t_timer w m)) eqn:ES; [|reflexivity]. exfalso. destruct (g_stop w G m ES); congruence.
      - intros m [].
      - intros m HM. destruct (HA m HM) as (_ & A & T). auto. }
    intros s'. rewrite trun_app. destruct (ring_run s' (trun w s) RG) as [R2 L2]. split.
    - intros m HM. destruct (L2 m HM) as (n2 & E2 & Q2).
      (* while the ring forms nothing is logged for these threads *)
      assert (N1 : t_log (trun w s) = t_log w).
      { clear -ND HA NX G. 
        assert (X : forall l done v, NoDup (done ++ l) -> (forall m, In m l -> In m circle) ->
          (forall m, In m circle -> m < N /\ t_pc (t_timer v m) = TCall /\ t_stop (t_timer v m) = false) ->
          (forall m, In m l -> t_act v (Worker m) = AIdle /\ exists rest, t_todo v (Worker m) = next m :: rest) ->
          t_log (trun v (flat_map (fun m => [agent (Worker m); agent (Worker m)]) l)) = t_log v).
        { induction l as [|m l IH]; intros done v ND0 HC HV HT; [reflexivity|]. cbn [flat_map]. rewrite trun_app.
          assert (HM : In m circle) by (apply HC; left; reflexivity).
          destruct (HV m HM) as (L & P & _). destruct (HT m (or_introl eq_refl)) as (A & rest & T).
          destruct (HV (next m) (NX m HM)) as (_ & _ & S0).
          rewrite (two_turns v (Worker m) (next m) rest (conj L P) A T S0).
          rewrite (IH (done ++ [m])); [reflexivity|rewrite <- app_assoc; exact ND0|intros z HZ; apply HC; right; exact HZ|..].
          - intros z HZ. destruct (HV z HZ) as (L1 & P1 & S1). unput. split; [exact L1|].
            destruct (Nat.eqb_spec z (next m)) as [->|NE]; [|split; assumption]. unput. split; assumption.
          - intros z HZ. assert (z <> m).
            { intros ->. apply NoDup_remove_2 in ND0. apply ND0, in_or_app. right. exact HZ. }
            unput. destruct (tid_eqb_spec (Worker z) (Worker m)) as [E|_]; [congruence|]. apply HT. right. exact HZ. }
        apply (X circle [] w); auto.
        - intros m HM. destruct (HA m HM) as ((L & P) & _). split; [exact L|]. split; [exact P|].
          destruct (t_stop (t_timer w m)) eqn:ES; [|reflexivity]. exfalso. destruct (g_stop w G m ES); congruence.
        - intros m HM. destruct (HA m HM) as (_ & A & T). auto. }
      exists n2. split; [rewrite E2, N1; reflexivity|exact Q2].
    - intros m t HM HL. assert (G2 : ginv (trun (trun w s) s')) by (do 2 apply ginv_run; exact G).
      destruct (R2 m HM) as [P _]. destruct (g_log _ G2 t m HL); congruence.
  Qed.
End Dead.

Section Shared.
  Variables N M : nat.
  Variable func : list tev -> nat -> list nat.
  Notation tstep := (tstep N M func).
  Notation trun := (trun N M func).
  Notation tmove := (tmove N M func).
  Notation can := (can N M).
  Definition lost (x : nat) (t : tid) (w : tworld) : Prop :=
    waits w t x /\ t_flag (t_timer w x) = false /\ t_pc (t_timer w x) = TDone /\ (forall m, t = Worker m -> t_pc (t_timer w m) = TCall).
  Lemma lost_move w mv w' x t : lost x t w -> tmove w mv w' -> lost x t w'.
  Proof.
    intros (W & F & P & C) Mv. split; [|split; [|split]].
    - unfold waits in *. destruct (act_move N M func w mv w' t Mv) as [E1|z rest E1 C1 A3 A4 A5 A6 A7|z E1 A3 A4 A5|z E1 A3 A4 A5|z E1 A3 A4 A5|z E1 A3 A4 A5|z A3 A4].
      + rewrite E1. exact W.
      + destruct W; congruence.
      + destruct W; congruence.
      + exfalso. assert (z = x) by (destruct W; congruence). congruence.
      + right. destruct W; congruence.
      + destruct W; congruence.
      + left. destruct W; congruence.
    - destruct (timer_move N M func w mv w' x Mv) as [E|u _ U1 U2 E|u EM U1 E|_ T T2 E|_ T T2 E|pc EM2 E NO1 P1 P3 A PC|_ E T A1 A2|_ E T B]; try congruence; rewrite E; try exact F; reflexivity.
    - destruct (timer_move N M func w mv w' x Mv) as [E|u _ U1 U2 E|u EM U1 E|_ T T2 E|_ T T2 E|pc EM2 E NO1 P1 P3 A PC|_ E T A1 A2|_ E T B]; try congruence; rewrite E; try exact P.
      exfalso. apply NO1. right. exact P.
    - intros m EM. specialize (C m EM).
      destruct (timer_move N M func w mv w' m Mv) as [E|u _ U1 U2 E|u EM1 U1 E|_ T T2 E|_ T T2 E|pc EM2 E NO1 P1 P3 A PC|_ E T A1 A2|_ E T B]; try congruence; try (rewrite E; exact C).
      exfalso. subst t. destruct (act_move N M func w mv w' (Worker m) Mv) as [E1|z rest E1 C1 A3 A4 A5 A6 A7|z E1 A3 A4 A5|z E1 A3 A4 A5|z E1 A3 A4 A5|z E1 A3 A4 A5|z A3 A4]; destruct W; congruence.
  Qed.
  Lemma lost_run s : forall w x t, lost x t w -> exists new, t_log (trun w s) = t_log w ++ new /\ Forall (silent t) new.
  Proof.
    induction s as [|a s IH]; intros w x t L.
    - exists []. split; [symmetry; apply app_nil_r|constructor].
    - pose proof (tstep_moves N M func w a) as Mv. pose proof (lost_move w _ _ x t L Mv) as L1.
      destruct (IH _ x t L1) as (n2 & E2 & Q2). destruct L as (W & _ & _ & C).
      destruct (waiting_silent N M func w _ _ t x Mv W C) as (n1 & E1 & Q1).
      exists (n1 ++ n2). split; [|apply Forall_app; split; assumption].
      change (trun w (a :: s)) with (trun (tstep w a) s). rewrite E2, E1, app_assoc. reflexivity.
  Qed.
  Lemma shared_stuck w x t1 t2 : (x < N) -> t1 <> t2 -> t_pc (t_timer w x) = TTest -> t_stop (t_timer w x) = false ->
    about_to_stop N M w t1 x -> about_to_stop N M w t2 x ->
    exists s, forall s' t, t = t1 \/ t = t2 -> exists new, t_log (trun w (s ++ s')) = t_log w ++ new /\ Forall (silent t) new.
  Proof.
    intros L NE P S0 (C1 & A1 & r1 & T1) (C2 & A2 & r2 & T2).
    assert (X1 : t1 <> Worker x) by (intros ->; destruct C1; congruence).
    assert (X2 : t2 <> Worker x) by (intros ->; destruct C2; congruence).
    set (go := TWork x false (Outside 0)).
    exists [agent t1; agent t2; agent t1; go; agent t2; go]. intros s' t HT. rewrite trun_app.
    set (w1 := put_act (put_todo w t1 r1) t1 (AClear x)).
    assert (E1 : tstep w (agent t1) = w1) by (apply (one_turn N M func w t1 x r1); assumption).
    set (w2 := put_act (put_todo w1 t2 r2) t2 (AClear x)).
    assert (E2 : tstep w1 (agent t2) = w2).
    { apply (one_turn N M func w1 t2 x r2); unfold w1; unput; try assumption.
      - destruct (tid_eqb_spec t2 t1); congruence.
      - destruct (tid_eqb_spec t2 t1); congruence. }
    set (w3 := put_act (put_timer w2 x (flagged (t_timer w2 x) false)) t1 (AWait x)).
    assert (E3 : tstep w2 (agent t1) = w3).
    { apply (clear_turn N M func w2 t1 x); unfold w2, w1; unput.
      - destruct t1; exact C1.
      - destruct (tid_eqb_spec t1 t2); [congruence|]. rewrite tid_eqb_refl. reflexivity. }
    set (w4 := put_timer w3 x (Tm true (t_stop (t_timer w3 x)) TNotify)).
    assert (TX3 : t_timer w3 x = Tm false (t_stop (t_timer w x)) TTest).
    { unfold w3, w2, w1. unput. rewrite Nat.eqb_refl. unfold flagged. rewrite P. reflexivity. }
    assert (E4 : tstep w3 go = w4).
    { unfold go. cbn [TimersModel.tstep]. rewrite (proj2 (Nat.ltb_lt x N) L). unfold worker_step, w4. rewrite TX3. cbn [t_pc t_flag t_stop]. reflexivity. }
    set (w5 := put_act (put_timer w4 x (flagged (t_timer w4 x) false)) t2 (AWait x)).
    assert (PO : forall m, m <> x -> t_pc (t_timer w4 m) = t_pc (t_timer w m)).
    { intros m NM. unfold w4, w3, w2, w1. unput. destruct (Nat.eqb_spec m x); [congruence|reflexivity]. }
    assert (E5 : tstep w4 (agent t2) = w5).
    { apply (clear_turn N M func w4 t2 x).
      - destruct t2 as [m|k]; [|exact C2]. destruct C2 as [C2 C3]. split; [exact C2|]. rewrite PO; [exact C3|congruence].
      - unfold w4, w3, w2, w1. unput. destruct (tid_eqb_spec t2 t1); [congruence|]. rewrite tid_eqb_refl. reflexivity. }
    assert (TX5 : t_timer w5 x = Tm false (t_stop (t_timer w x)) TNotify).
    { unfold w5, w4. unput. rewrite !Nat.eqb_refl. unput. rewrite TX3. reflexivity. }
    assert (A5 : forall t, t = t1 \/ t = t2 -> t_act w5 t = AWait x).
    { intros u [->| ->]; unfold w5, w4, w3; unput; [destruct (tid_eqb_spec t1 t2); [congruence|]|]; rewrite tid_eqb_refl; reflexivity. }
    assert (P5 : forall t m, t = t1 \/ t = t2 -> t = Worker m -> t_pc (t_timer w5 m) = TCall).
    { intros u m HU ->. assert (NM : m <> x) by (destruct HU; congruence).
      unfold w5. unput. destruct (Nat.eqb_spec m x); [congruence|]. rewrite PO by exact NM.
      destruct HU as [HU|HU]; [rewrite <- HU in C1; apply C1|rewrite <- HU in C2; apply C2]. }
    pose proof (tstep_moves N M func w5 go) as Mv.
    set (w6 := tstep w5 go) in *.
    assert (L6 : lost x t w6).
    { assert (EP : t_pc (t_timer w6 x) = TDone /\ t_flag (t_timer w6 x) = false).
      { unfold w6, go. cbn [TimersModel.tstep]. rewrite (proj2 (Nat.ltb_lt x N) L). unfold worker_step. rewrite TX5. cbn [t_pc].
        unfold put_tpc. rewrite timer_same. cbn [t_pc t_flag]. split; [reflexivity|].
        assert (X : t_timer (twake N M w5 x (Outside 0)) x = t_timer w5 x).
        { unfold twake. destruct (blocked_on w5 x (Outside 0)); [reflexivity|]. destruct (filter (blocked_on w5 x) (tids N M)); reflexivity. }
        rewrite X, TX5. reflexivity. }
      split; [|split; [apply EP|split; [apply EP|]]].
      - pose proof (A5 t HT) as AT. unfold waits.
        destruct (act_move N M func w5 _ w6 t Mv) as [F1|z rest F1 C3 A3 A4 A6 A7 A8|z F1 A3 A4 A6|z F1 A3 A4 A6|z F1 A3 A4 A6|z F1 A3 A4 A6|z A3 A4]; try congruence.
        + left. congruence.
        + exfalso. assert (z = x) by congruence. subst z. rewrite TX5 in A4. discriminate.
        + right. congruence.
      - intros m EM. pose proof (P5 t m HT EM) as PM. assert (NM : m <> x) by (destruct HT; congruence).
        destruct (timer_move N M func w5 _ w6 m Mv) as [E|u _ U1 U2 E|u EM1 U1 E|_ T3 T4 E|_ T3 T4 E|pc EM2 E NO1 P1 P3 A PC|EM2 E T3 A3 A4|_ E T3 B]; try congruence; try (rewrite E; exact PM).
        cbn in EM2. congruence. }
    assert (E6 : trun w [agent t1; agent t2; agent t1; go; agent t2; go] = w6).
    { unfold TimersModel.trun. cbn [fold_left]. rewrite E1, E2, E3, E4, E5. reflexivity. }
    rewrite E6. destruct (lost_run s' w6 x t L6) as (new & EN & Q).
    assert (EL : t_log w6 = t_log w).
    { unfold w6, go. cbn [TimersModel.tstep]. rewrite (proj2 (Nat.ltb_lt x N) L). unfold worker_step. rewrite TX5. cbn [t_pc]. unfold put_tpc, twake. cbn [put_timer t_log].
      destruct (blocked_on w5 x (Outside 0)); [reflexivity|]. destruct (filter (blocked_on w5 x) (tids N M)); reflexivity. }
    exists new. split; [rewrite EN, EL; reflexivity|exact Q].
  Qed.
End Shared.

(** ** what has been called has come back by the time stop() returns *)
Section Finished.
  Variables N M : nat.
  Variable func : list tev -> nat -> list nat.
  Notation trun := (trun N M func).
  Notation tmove := (tmove N M func).
  Definition inside (w : tworld) (m : nat) : nat := match t_pc (t_timer w m) with TCall => 1 | _ => 0 end.
  Record finv (w : tworld) : Prop := {
    f_g : ginv w;
    f_count : forall m, called m (t_log w) = ended m (t_log w) + inside w m;
    f_log : forall l1 t x l2, t_log w = l1 ++ EReturn t x :: l2 -> called x l1 = ended x l1
  }.
  Lemma called_app m a b : called m (a ++ b) = called m a + called m b.
  Proof. unfold called. rewrite filter_app, app_length. reflexivity. Qed.
  Lemma ended_app m a b : ended m (a ++ b) = ended m a + ended m b.
  Proof. unfold ended. rewrite filter_app, app_length. reflexivity. Qed.
  Lemma finv_move w mv w' : finv w -> tmove w mv w' -> finv w'.
  Proof.
    intros [G FC FL] Mv. pose proof (ginv_move N M func w mv w' G Mv) as G'. split; [exact G'|..].
    - intros m. specialize (FC m).
      assert (C1 : forall (l : list tev) n, called m (l ++ [ECall n]) = called m l + (if n =? m then 1 else 0)) by
        (intros; rewrite called_app; unfold called; cbn [filter]; destruct (n =? m); reflexivity).
      assert (C2 : forall (l : list tev) n, called m (l ++ [EEnd n]) = called m l) by (intros; rewrite called_app; cbn; lia).
      assert (C3 : forall (l : list tev) t x, called m (l ++ [EReturn t x]) = called m l) by (intros; rewrite called_app; cbn; lia).
      assert (E1 : forall (l : list tev) n, ended m (l ++ [EEnd n]) = ended m l + (if n =? m then 1 else 0)) by
        (intros; rewrite ended_app; unfold ended; cbn [filter]; destruct (n =? m); reflexivity).
      assert (E2 : forall (l : list tev) n, ended m (l ++ [ECall n]) = ended m l) by (intros; rewrite ended_app; cbn; lia).
      assert (E3 : forall (l : list tev) t x, ended m (l ++ [EReturn t x]) = ended m l) by (intros; rewrite ended_app; cbn; lia).
      unfold inside in *. destruct Mv; unput; rewrite ?C1, ?C2, ?C3, ?E1, ?E2, ?E3; try exact FC.
      all: match goal with |- context [match t_pc (if ?a =? ?b then _ else _) with _ => _ end] => rewrite ?(Nat.eqb_sym b a); destruct (Nat.eqb_spec a b) as [->|NE] end; unput; try lia.
      all: repeat match goal with H : (_ /\ _) \/ _ |- _ => destruct H as [[? ->]|H] | H : _ /\ _ |- _ => destruct H; subst | H : t_pc _ = _ |- _ => rewrite H in FC end; lia.
    - intros l1 t x l2 E. destruct (log_move N M func w mv w' Mv) as [E2|(e & E2 & HE)]; rewrite E2 in E; [eapply FL; exact E|].
      destruct (exists_last (l := EReturn t x :: l2)) as (l3 & y & E3); [discriminate|].
      rewrite E3, app_assoc in E. apply app_inj_tail in E. destruct E as [E ->]. destruct l3 as [|z l3].
      + cbn [app] in E3. injection E3 as <- _. rewrite app_nil_r in E. subst l1. rewrite FC.
        assert (O : out (t_timer w x)) by (destruct HE as (_ & _ & [[H _]|H]); [apply (g_stop w G), H|apply (g_fin w G t), H]).
        unfold inside. destruct O as [O|O]; rewrite O; lia.
      + cbn [app] in E3. injection E3 as <- ->. eapply FL. exact E.
  Qed.
  Lemma finv_start progs : finv (tstart progs).
  Proof. split; [apply ginv_start|reflexivity|]. intros [|e l1] t0 x0 l2 E; discriminate E. Qed.
  Lemma finv_run s : forall w, finv w -> finv (trun w s).
  Proof. induction s as [|a s IH]; intros w F; [exact F|]. apply IH. eapply finv_move; [exact F|apply tstep_moves]. Qed.
End Finished.
