(** Several timers: every stop() returns when every timer has one owner and ranks fall. *)
From Verif Require Export TimersProofs2.
Local Open Scope nat_scope.

Ltac pcs :=
  repeat match goal with
  | H : (_ /\ _) \/ _ |- _ => destruct H as [[? ?]|H]
  | H : _ /\ _ |- _ => destruct H
  end; congruence.
Section Live.
  Variables N M : nat.
  Variable func : list tev -> nat -> list nat.
  Variable progs : nat -> list nat.
  Variable owner : nat -> tid.
  Variable rank : nat -> nat.
  Variable K : nat.
  Notation tids := (tids N M).
  Notation tstep := (tstep N M func).
  Notation trun := (trun N M func).
  Notation tmove := (tmove N M func).
  Notation can := (can N M).
  Notation hinv := (hinv N M owner rank K).
  Hypothesis HI : hierarchy N func progs owner rank K.

  (** Turns still needed. *)
  Definition price (f : nat) : nat := match f with O => 0 | S g => 5 + rounds K g end.
  Definition acost (lf : nat -> nat) (g : nat) (w : tworld) (t : tid) : nat :=
    match t_act w t with
    | AIdle => 0
    | AClear _ => 4 + rounds K g
    | AWait y => if t_flag (t_timer w y) then 2 else 3 + lf y
    | ABlocked y => 3 + lf y
    | AFin _ => 1
    end.
  Fixpoint left (f : nat) (w : tworld) (x : nat) : nat :=
    match t_pc (t_timer w x) with
    | TDone => 0
    | TNotify => 1
    | TTest => 2
    | TStart | TPause => 3
    | TCheck => 5 + K * price f
    | TCall => 4 + length (t_todo w (Worker x)) * price f + match f with O => 0 | S g => acost (left g w) g w (Worker x) end
    end.
  Definition ahead (hd : nat -> tid) (w : tworld) (t : tid) : tid :=
    match t_act w t with
    | AWait y => if t_flag (t_timer w y) then t else hd y
    | ABlocked y => hd y
    | _ => t
    end.
  Fixpoint head (f : nat) (w : tworld) (x : nat) : tid :=
    match t_pc (t_timer w x), f with
    | TCall, S g => ahead (head g w) w (Worker x)
    | _, _ => Worker x
    end.
  Lemma price_rounds f : rounds K f = 5 + K * price f.
  Proof. destruct f; cbn; lia. Qed.
  Lemma stopping_busy w t y : stopping w t y -> busy (t_act w t) = 1%nat.
  Proof. intros [H|[H|[H|H]]]; rewrite H; reflexivity. Qed.
  Lemma left_bound f w x : hinv w -> (rank x <= f)%nat -> (left f w x <= rounds K f)%nat /\ (t_pc (t_timer w x) = TCall -> (left f w x <= 4 + K * price f)%nat).
  Proof.
    intros I. revert x. induction f as [|g IH]; intros x R.
    - assert (B : (left 0 w x <= 5)%nat /\ (t_pc (t_timer w x) = TCall -> (left 0 w x <= 4)%nat)).
      { cbn [left price]. destruct (t_pc (t_timer w x)); split; intros; try discriminate; cbn; lia. }
      cbn [rounds price]. rewrite Nat.mul_0_r. exact B.
    - assert (C : t_pc (t_timer w x) = TCall -> (left (S g) w x <= 4 + K * price (S g))%nat).
      { intros EP. cbn [left]. rewrite EP. pose proof (i_most N M owner rank K w I x) as L.
        assert (A : (acost (left g w) g w (Worker x) <= busy (t_act w (Worker x)) * (4 + rounds K g))%nat).
        { unfold acost. destruct (t_act w (Worker x)) as [|y|y|y|y] eqn:EA; cbn [busy]; try lia.
          - assert (S0 : stopping w (Worker x) y) by (right; left; exact EA).
            destruct (i_act N M owner rank K w I _ _ S0) as [(_ & _ & R2) _]. cbn in R2.
            destruct (IH y ltac:(lia)) as [B _]. destruct (t_flag (t_timer w y)); lia.
          - assert (S0 : stopping w (Worker x) y) by (right; right; left; exact EA).
            destruct (i_act N M owner rank K w I _ _ S0) as [(_ & _ & R2) _]. cbn in R2.
            destruct (IH y ltac:(lia)) as [B _]. lia. }
        cbn [price]. remember (length (t_todo w (Worker x))) as n. remember (busy (t_act w (Worker x))) as b. remember (rounds K g) as r.
        assert (n * (5 + r) + b * (5 + r) <= K * (5 + r))%nat by (rewrite <- Nat.mul_add_distr_r; apply Nat.mul_le_mono_r; exact L).
        assert (b * (4 + r) <= b * (5 + r))%nat by (apply Nat.mul_le_mono_l; lia). lia. }
      split; [|exact C]. destruct (t_pc (t_timer w x)) eqn:EP.
      all: try (rewrite price_rounds; cbn [left]; rewrite EP; lia).
      specialize (C eq_refl). rewrite price_rounds. lia.
  Qed.
  Definition closing (x : timer) : Prop := t_flag x = false \/ out x.

  (** A turn is used. *)
  Lemma turn_used w t w' y : hinv w -> tmove w (Some t) w' -> stopping w t y -> (forall x, t_act w t <> ABlocked x) -> t_act w' t <> t_act w t.
  Proof.
    intros I Mv S0 NB. assert (NI : t_act w t <> AIdle) by (destruct S0 as [E|[E|[E|E]]]; congruence).
    assert (PW : forall m, t = Worker m -> t_pc (t_timer w m) = TCall).
    { intros m ->. apply (i_call N M owner rank K w I). left. exact NI. }
    assert (L : In t tids) by (apply (i_act N M owner rank K w I t y S0)).
    inversion Mv; subst; try congruence.
    - exfalso. unfold TimersModel.tids in L. apply in_app_or in L. destruct t as [m|k]; cbn in H.
      + destruct H as [H|[H|[_ [x H]]]].
        * destruct L as [L|L]; apply in_map_iff in L; destruct L as (z & EZ & L); [injection EZ as ->; apply in_seq in L; lia|discriminate].
        * rewrite (PW m eq_refl) in H. discriminate.
        * apply (NB x H).
      + destruct H as [H|[[x H]|[H _]]].
        * destruct L as [L|L]; apply in_map_iff in L; destruct L as (z & EZ & L); [discriminate|injection EZ as ->; apply in_seq in L; lia].
        * apply (NB x H).
        * apply NI, H.
    - unput. rewrite tid_eqb_refl. congruence.
    - unput. rewrite tid_eqb_refl. congruence.
    - unput. rewrite tid_eqb_refl. congruence.
    - unput. rewrite tid_eqb_refl. congruence.
    - exfalso. pose proof (PW m eq_refl). pcs.
    - exfalso. pose proof (PW m eq_refl). congruence.
    - exfalso. pose proof (PW m eq_refl). congruence.
    - exfalso. pose proof (PW m eq_refl). congruence.
    - exfalso. pose proof (PW m eq_refl). congruence.
    - exfalso. pose proof (PW m eq_refl). congruence.
  Qed.
  Lemma turn_pc w x w' : (x < N)%nat -> tmove w (Some (Worker x)) w' -> t_pc (t_timer w x) <> TCall -> t_pc (t_timer w x) <> TDone ->
    t_pc (t_timer w' x) <> t_pc (t_timer w x).
  Proof.
    intros L Mv P1 P2. inversion Mv; subst; try (match goal with C : TimersProofs1.can _ _ _ _ |- _ => destruct C; congruence end);
      unput; rewrite ?Nat.eqb_refl; unput; try congruence.
    - exfalso. cbn in H. destruct H as [H|[H|[H _]]]; [lia|congruence|congruence].
    - pcs.
  Qed.

  (** ** one move *)
  Definition progress (mv : option tid) (hd hd' : tid) (c c' : nat) : Prop :=
    (c' <= c)%nat /\ (mv = Some hd -> (c' < c)%nat) /\ (c' = c -> hd' = hd).
  Lemma progress_add mv hd hd' c c' d : progress mv hd hd' c c' -> progress mv hd hd' (d + c) (d + c').
  Proof. intros (A & B & C). split; [lia|]. split; [intros E; specialize (B E); lia|intros E; apply C; lia]. Qed.
  Lemma progress_strict mv hd hd' c c' : (c' < c)%nat -> progress mv hd hd' c c'.
  Proof. intros H. split; [lia|]. split; lia. Qed.

  Definition good_at (f : nat) : Prop := forall w mv w' x, hinv w -> tmove w mv w' -> (x < N)%nat -> (rank x <= f)%nat ->
    closing (t_timer w x) -> t_pc (t_timer w x) <> TDone -> progress mv (head f w x) (head f w' x) (left f w x) (left f w' x).
  Lemma thread_progress g w mv w' t y : good_at g -> hinv w -> tmove w mv w' -> stopping w t y -> (rank y <= g)%nat ->
    progress mv (ahead (head g w) w t) (ahead (head g w') w' t) (acost (left g w) g w t) (acost (left g w') g w' t).
  Proof.
    intros G I Mv S0 R. pose proof (hinv_move N M func progs owner rank K HI w mv w' I Mv) as I'.
    destruct (i_act N M owner rank K w I t y S0) as [(LY & OY & _) _].
    assert (TU := turn_used w t w' y I).
    destruct S0 as [EA|[EA|[EA|EA]]].
    - (* AClear *)
      unfold ahead, acost. rewrite EA.
      destruct (act_move N M func w mv w' t Mv) as [E|z rest E C A1 A2 A3 A4 A5|z E A1 A2 A3|z E A1 A2 A3|z E A1 A2 A3|z E A1 A2 A3|z A1 A2]; try congruence.
      + rewrite E, EA. split; [lia|]. split; [|reflexivity]. intros EM. exfalso. subst mv.
        apply (TU Mv); [left; exact EA|intros; congruence|exact E].
      + assert (z = y) by congruence. subst z. rewrite A2, A3. apply progress_strict.
        destruct (left_bound g w' y I' R) as [B _]. lia.
    - (* AWait *)
      destruct (t_flag (t_timer w y)) eqn:EF.
      + unfold ahead, acost. rewrite EA, EF.
        destruct (act_move N M func w mv w' t Mv) as [E|z rest E C A1 A2 A3 A4 A5|z E A1 A2 A3|z E A1 A2 A3|z E A1 A2 A3|z E A1 A2 A3|z A1 A2]; try congruence.
        * rewrite E, EA.
          assert (F' : t_flag (t_timer w' y) = true).
          { destruct (i_wait N M owner rank K w I t y (or_introl EA)) as [[F _]|[_ O]]; [congruence|].
            destruct (i_wait N M owner rank K w' I' t y) as [[_ NO]|[F _]]; [left; congruence| |exact F].
            exfalso. apply NO. apply (out_mono N M func w w' mv Mv), O. }
          rewrite F'. split; [lia|]. split; [|reflexivity]. intros EM. exfalso. subst mv.
          apply (TU Mv); [right; left; exact EA|intros; congruence|exact E].
        * rewrite A3. apply progress_strict. lia.
      + assert (NO : ~ out (t_timer w y)).
        { destruct (i_wait N M owner rank K w I t y (or_introl EA)) as [[_ NO]|[F _]]; [exact NO|congruence]. }
        assert (P : progress mv (head g w y) (head g w' y) (left g w y) (left g w' y)).
        { apply G; try assumption; [left; exact EF|]. intros D. apply NO. right. exact D. }
        unfold ahead, acost. rewrite EA, EF.
        destruct (act_move N M func w mv w' t Mv) as [E|z rest E C A1 A2 A3 A4 A5|z E A1 A2 A3|z E A1 A2 A3|z E A1 A2 A3|z E A1 A2 A3|z A1 A2]; try congruence.
        * rewrite E, EA. destruct (t_flag (t_timer w' y)); [apply progress_strict; lia|apply progress_add, P].
        * assert (z = y) by congruence. subst z. rewrite A3. apply progress_add, P.
    - (* ABlocked *)
      assert (P : progress mv (head g w y) (head g w' y) (left g w y) (left g w' y)).
      { apply G; try assumption; [|apply (i_block N M owner rank K w I t y EA)].
        destruct (i_wait N M owner rank K w I t y (or_intror EA)) as [[F _]|[_ O]]; [left; exact F|right; exact O]. }
      unfold ahead, acost. rewrite EA.
      destruct (act_move N M func w mv w' t Mv) as [E|z rest E C A1 A2 A3 A4 A5|z E A1 A2 A3|z E A1 A2 A3|z E A1 A2 A3|z E A1 A2 A3|z A1 A2]; try congruence.
      + rewrite E, EA. apply progress_add, P.
      + assert (z = y) by congruence. subst z. rewrite A2. destruct (t_flag (t_timer w' y)); [apply progress_strict; lia|apply progress_add, P].
    - (* AFin *)
      unfold ahead, acost. rewrite EA.
      destruct (act_move N M func w mv w' t Mv) as [E|z rest E C A1 A2 A3 A4 A5|z E A1 A2 A3|z E A1 A2 A3|z E A1 A2 A3|z E A1 A2 A3|z A1 A2]; try congruence.
      + rewrite E, EA. split; [lia|]. split; [|reflexivity]. intros EM. exfalso. subst mv.
        apply (TU Mv); [right; right; right; exact EA|intros; congruence|exact E].
      + rewrite A3. apply progress_strict. lia.
  Qed.
  Lemma good_all f : good_at f.
  Proof.
    induction f as [f IHf] using lt_wf_ind. intros w mv w' x I Mv L R C ND.
    pose proof (hinv_move N M func progs owner rank K HI w mv w' I Mv) as I'.
    assert (OWN : forall t, stopping w t x -> t <> Worker x).
    { intros t S0 ->. destruct (i_act N M owner rank K w I _ _ S0) as [(_ & _ & R2) _]. cbn in R2. lia. }
    destruct (t_pc (t_timer w x)) eqn:EP; try congruence.
    all: try (assert (HL : forall v, t_pc (t_timer v x) <> TCall -> head f v x = Worker x) by
        (intros v HV; destruct f; cbn [head]; destruct (t_pc (t_timer v x)); congruence)).
    all: try (assert (SAME : t_pc (t_timer w' x) = t_pc (t_timer w x) -> mv <> Some (Worker x) -> t_pc (t_timer w x) <> TCall ->
          progress mv (head f w x) (head f w' x) (left f w x) (left f w' x)) by
        (intros E NM NC; rewrite !HL by congruence; split; [|split; [congruence|reflexivity]];
         destruct f; cbn [left]; rewrite E; destruct (t_pc (t_timer w x)); try congruence; lia)).
    all: try (assert (NOMOVE : t_pc (t_timer w' x) = t_pc (t_timer w x) -> t_pc (t_timer w x) <> TCall -> mv <> Some (Worker x)) by
        (intros E NC ->; apply (turn_pc w x w' L Mv); [exact NC|congruence|exact E])).
    - (* TStart *)
      destruct (timer_move N M func w mv w' x Mv) as [E|u _ U1 U2 E|u EM U1 E|_ T T2 E|_ T T2 E|pc EM2 E NO1 P1 P2 A PC|_ E T A1 A2|_ E T B]; try congruence;
        try (apply SAME; [rewrite E; reflexivity|apply NOMOVE; [rewrite E; reflexivity|congruence]|congruence]).
      apply progress_strict. destruct PC as [[_ ->]|[[PC _]|[PC _]]]; try congruence.
      destruct f; cbn [left]; rewrite E, EP; cbn [at_pc t_pc]; lia.
    - (* TTest *)
      destruct (timer_move N M func w mv w' x Mv) as [E|u _ U1 U2 E|u EM U1 E|_ T T2 E|_ T T2 E|pc EM2 E NO1 P1 P2 A PC|_ E T A1 A2|_ E T B]; try congruence;
        try (apply SAME; [rewrite E; reflexivity|apply NOMOVE; [rewrite E; reflexivity|congruence]|congruence]).
      + exfalso. destruct C as [C|[C|C]]; congruence.
      + apply progress_strict. destruct f; cbn [left]; rewrite E, EP; cbn [t_pc]; lia.
      + exfalso. destruct PC as [[PC _]|[[PC _]|[PC _]]]; congruence.
    - (* TCheck *)
      destruct (timer_move N M func w mv w' x Mv) as [E|u _ U1 U2 E|u EM U1 E|_ T T2 E|_ T T2 E|pc EM2 E NO1 P1 P2 A PC|_ E T A1 A2|_ E T B]; try congruence;
        try (apply SAME; [rewrite E; reflexivity|apply NOMOVE; [rewrite E; reflexivity|congruence]|congruence]).
      apply progress_strict. assert (LW : left f w x = (5 + K * price f)%nat) by (destruct f; cbn [left]; rewrite EP; reflexivity).
      destruct PC as [[PC _]|[[PC _]|[_ [->| ->]]]]; try congruence.
      + rewrite LW. destruct f; cbn [left]; rewrite E; cbn [at_pc t_pc]; lia.
      + destruct (left_bound f w' x I' R) as [_ B]. rewrite E in B. specialize (B eq_refl). lia.
    - (* TCall *)
      clear HL SAME NOMOVE.
      assert (PC' : t_pc (t_timer w' x) = TCall \/ (mv = Some (Worker x) /\ t_pc (t_timer w' x) = TPause)).
      { destruct (timer_move N M func w mv w' x Mv) as [E|u _ U1 U2 E|u EM U1 E|_ T T2 E|_ T T2 E|pc EM2 E NO1 P1 P2 A PC|EM E T A1 A2|_ E T B]; try congruence.
        - left. congruence.
        - left. rewrite E. exact EP.
        - left. rewrite E. exact EP.
        - right. rewrite E. auto. }
      destruct PC' as [EP'|[_ EP']].
      2:{ apply progress_strict. destruct f; cbn [left]; rewrite EP, EP'; lia. }
      assert (D : t_act w (Worker x) = AIdle \/ exists y, stopping w (Worker x) y).
      { unfold stopping. destruct (t_act w (Worker x)) as [|y|y|y|y] eqn:EA; [left; reflexivity|right; exists y; auto..]. }
      destruct D as [EA|[y S0]].
      + (* between two calls of stop() *)
        assert (DM : mv = Some (Worker x) \/ mv <> Some (Worker x)).
        { destruct mv as [t|]; [|right; discriminate]. destruct (tid_eqb_spec t (Worker x)) as [->|NE]; [left; reflexivity|right; congruence]. }
        destruct DM as [->|NM].
        * inversion Mv; subst; try congruence.
          -- exfalso. cbn in H. destruct H as [H|[H|[_ [z H]]]]; [lia|congruence|congruence].
          -- match goal with HT : t_todo w (Worker x) = ?y :: ?rest |- _ =>
               assert (RY : rightly N owner rank (Worker x) y) by (apply (i_todo N M owner rank K w I); rewrite HT; left; reflexivity);
               destruct RY as (_ & _ & RY); cbn in RY; destruct f as [|g]; [lia|]; apply progress_strict;
               cbn [left]; rewrite EP', EP; unfold acost; rewrite HT, EA; unput; rewrite ?tid_eqb_refl; cbn [length price]; rewrite ?EA; lia
             end.
          -- match goal with HT : t_todo w (Worker x) = ?y :: ?rest |- _ =>
               assert (RY : rightly N owner rank (Worker x) y) by (apply (i_todo N M owner rank K w I); rewrite HT; left; reflexivity);
               destruct RY as (_ & _ & RY); cbn in RY; destruct f as [|g]; [lia|]; apply progress_strict;
               cbn [left]; rewrite EP', EP; unfold acost; rewrite HT, EA; unput; rewrite ?tid_eqb_refl; cbn [length price]; rewrite ?EA; lia
             end.
          -- exfalso. pcs.
          -- exfalso. unput. rewrite Nat.eqb_refl in EP'. discriminate EP'.
        * assert (ET : t_todo w' (Worker x) = t_todo w (Worker x)).
          { destruct (todo_move N M func w mv w' (Worker x) Mv) as [E|[(E & _)|(m & E & E2 & _)]]; [exact E|congruence|congruence]. }
          assert (EA' : t_act w' (Worker x) = AIdle).
          { destruct (act_move N M func w mv w' (Worker x) Mv) as [E|z rest E C1 A1 A2 A3 A4 A5|z E A1 A2 A3|z E A1 A2 A3|z E A1 A2 A3|z E A1 A2 A3|z A1 A2]; congruence. }
          split; [|split; [intros E; exfalso; apply NM; rewrite E; f_equal; destruct f; cbn [head]; rewrite EP; [reflexivity|unfold ahead; rewrite EA; reflexivity]|]].
          -- destruct f; cbn [left]; rewrite EP, EP', ET; [lia|]. unfold acost. rewrite EA, EA'. lia.
          -- intros _. destruct f; cbn [head]; rewrite EP, EP'; [reflexivity|]. unfold ahead. rewrite EA, EA'. reflexivity.
      + (* inside stop() *)
        destruct (i_act N M owner rank K w I _ _ S0) as [(LY & _ & RY) _]. cbn in RY.
        destruct f as [|g]; [lia|].
        assert (NI : t_act w (Worker x) <> AIdle) by (destruct S0 as [E|[E|[E|E]]]; congruence).
        assert (ET : t_todo w' (Worker x) = t_todo w (Worker x)).
        { destruct (todo_move N M func w mv w' (Worker x) Mv) as [E|[(E & z & _ & _ & E2)|(m & E & _ & E2 & _)]]; [exact E|congruence|congruence]. }
        assert (P := thread_progress g w mv w' (Worker x) y (IHf g (Nat.lt_succ_diag_r g)) I Mv S0 ltac:(lia)).
        cbn [left head]. rewrite EP, EP', ET. apply progress_add, P.
    - (* TPause *)
      destruct (timer_move N M func w mv w' x Mv) as [E|u _ U1 U2 E|u EM U1 E|_ T T2 E|_ T T2 E|pc EM2 E NO1 P1 P2 A PC|_ E T A1 A2|_ E T B]; try congruence;
        try (apply SAME; [rewrite E; reflexivity|apply NOMOVE; [rewrite E; reflexivity|congruence]|congruence]).
      apply progress_strict. destruct PC as [[PC _]|[[_ ->]|[PC _]]]; try congruence.
      destruct f; cbn [left]; rewrite E, EP; cbn [at_pc t_pc]; lia.
    - (* TNotify *)
      destruct (timer_move N M func w mv w' x Mv) as [E|u _ U1 U2 E|u EM U1 E|_ T T2 E|_ T T2 E|pc EM2 E NO1 P1 P2 A PC|_ E T A1 A2|_ E T B]; try congruence;
        try (apply SAME; [rewrite E; reflexivity|apply NOMOVE; [rewrite E; reflexivity|congruence]|congruence]).
      + exfalso. destruct PC as [[PC _]|[[PC _]|[PC _]]]; congruence.
      + apply progress_strict. destruct f; cbn [left]; rewrite E, EP; cbn [at_pc t_pc]; lia.
  Qed.

  (** ** rounds *)
  Lemma head_in f w x : hinv w -> (x < N)%nat -> exists m, (m < N)%nat /\ head f w x = Worker m.
  Proof.
    intros I. revert x. induction f as [|g IH]; intros x L.
    - exists x. split; [exact L|]. cbn [head]. destruct (t_pc (t_timer w x)); reflexivity.
    - cbn [head]. destruct (t_pc (t_timer w x)); try (exists x; split; [exact L|reflexivity]).
      unfold ahead. destruct (t_act w (Worker x)) as [|y|y|y|y] eqn:EA; try (exists x; split; [exact L|reflexivity]).
      + destruct (t_flag (t_timer w y)); [exists x; split; [exact L|reflexivity]|]. apply IH.
        apply (i_act N M owner rank K w I (Worker x) y). right. left. exact EA.
      + apply IH. apply (i_act N M owner rank K w I (Worker x) y). right. right. left. exact EA.
  Qed.
  Lemma run_progress g t y s : forall w, hinv w -> stopping w t y -> (rank y <= g)%nat ->
    (exists new, t_log (trun w s) = t_log w ++ new /\ In (EReturn t y) new) \/
    (stopping (trun w s) t y /\ (acost (left g (trun w s)) g (trun w s) t <= acost (left g w) g w t)%nat /\
     ((exists a, In a s /\ mover a = Some (ahead (head g w) w t)) -> (acost (left g (trun w s)) g (trun w s) t < acost (left g w) g w t)%nat)).
  Proof.
    induction s as [|a s IH]; intros w I S0 R.
    - right. split; [exact S0|]. split; [cbn; lia|]. intros (a & [] & _).
    - change (trun w (a :: s)) with (trun (tstep w a) s).
      pose proof (tstep_moves N M func w a) as Mv. set (w1 := tstep w a) in *.
      pose proof (hinv_move N M func progs owner rank K HI w _ w1 I Mv) as I1.
      pose proof (thread_progress g w _ w1 t y (good_all g) I Mv S0 R) as (P1 & P2 & P3).
      assert (D : stopping w1 t y \/ t_log w1 = t_log w ++ [EReturn t y]).
      { clear -Mv S0. unfold stopping in *. destruct Mv; unput; try (left; exact S0).
        all: match goal with |- context [tid_eqb ?t1 ?b] => destruct (tid_eqb_spec t1 b) as [->|NE]; [|left; exact S0] end.
        - exfalso. destruct S0 as [E|[E|[E|E]]]; congruence.
        - left. right. left. destruct S0 as [E|[E|[E|E]]]; congruence.
        - left. right. right. right. destruct S0 as [E|[E|[E|E]]]; congruence.
        - left. right. right. left. destruct S0 as [E|[E|[E|E]]]; congruence.
        - right. do 2 f_equal. destruct S0 as [E|[E|[E|E]]]; congruence.
        - left. right. left. destruct S0 as [E|[E|[E|E]]]; congruence.
        - left. right. left. destruct S0 as [E|[E|[E|E]]]; congruence. }
      destruct D as [S1|EL].
      + destruct (IH w1 I1 S1 R) as [(new & EN & HN)|(S2 & Q1 & Q2)].
        * left. destruct (log_run N M func [a] w) as [n1 E1]. cbn in E1. fold w1 in E1. exists (n1 ++ new). split; [rewrite EN; cbn in *; rewrite E1, app_assoc; reflexivity|].
          apply in_or_app. right. exact HN.
        * right. split; [exact S2|]. split; [lia|]. intros (b & HB & EB). destruct HB as [->|HB].
          -- specialize (P2 EB). lia.
          -- destruct (Nat.eq_dec (acost (left g w1) g w1 t) (acost (left g w) g w t)) as [EQ|NE]; [|lia].
             specialize (P3 EQ). rewrite <- EQ. apply Q2. exists b. split; [exact HB|]. congruence.
      + left. destruct (log_run N M func s w1) as [n1 E1]. exists (EReturn t y :: n1). split; [rewrite E1, EL, <- app_assoc; reflexivity|left; reflexivity].
  Qed.
  Lemma fair_head g w t y r : hinv w -> stopping w t y -> fair N t r -> exists a, In a r /\ mover a = Some (ahead (head g w) w t).
  Proof.
    intros I S0 [FW FT].
    assert (T : exists a, In a r /\ mover a = Some t).
    { destruct t as [m|k]; [|exists (TOut k); split; [exact FT|reflexivity]]. destruct (FW m FT) as (fire & who & H). exists (TWork m fire who). split; [exact H|reflexivity]. }
    assert (W : forall x, (x < N)%nat -> exists a, In a r /\ mover a = Some (head g w x)).
    { intros x L. destruct (head_in g w x I L) as (m & LM & ->). destruct (FW m LM) as (fire & who & H). exists (TWork m fire who). split; [exact H|reflexivity]. }
    assert (LY : (y < N)%nat) by (apply (i_act N M owner rank K w I t y S0)).
    unfold ahead. destruct S0 as [EA|[EA|[EA|EA]]]; rewrite EA; auto. destruct (t_flag (t_timer w y)); auto.
  Qed.
  Lemma rounds_return g t y rs : forall w, hinv w -> stopping w t y -> (rank y <= g)%nat -> (forall r, In r rs -> fair N t r) ->
    (acost (left g w) g w t <= length rs)%nat -> exists new, t_log (trun w (concat rs)) = t_log w ++ new /\ In (EReturn t y) new.
  Proof.
    induction rs as [|r rs IH]; intros w I S0 R F L.
    - exfalso. cbn in L. unfold acost in L. destruct S0 as [EA|[EA|[EA|EA]]]; rewrite EA in L; try lia. destruct (t_flag (t_timer w y)); lia.
    - cbn [concat]. rewrite trun_app.
      destruct (run_progress g t y r w I S0 R) as [(new & EN & HN)|(S2 & Q1 & Q2)].
      + destruct (log_run N M func (concat rs) (trun w r)) as [n1 E1]. exists (new ++ n1). split; [rewrite E1, EN, app_assoc; reflexivity|apply in_or_app; left; exact HN].
      + specialize (Q2 (fair_head g w t y r I S0 (F r (or_introl eq_refl)))).
        destruct (IH (trun w r)) as (new & EN & HN).
        * apply (hinv_run N M func progs owner rank K HI), I.
        * exact S2.
        * exact R.
        * intros r2 H. apply F. right. exact H.
        * cbn in L. lia.
        * destruct (log_run N M func r w) as [n1 E1]. exists (n1 ++ new). split; [rewrite EN, E1, app_assoc; reflexivity|apply in_or_app; right; exact HN].
  Qed.
  Lemma stop_returns t y rs s : stopping (trun (tstart progs) s) t y -> (forall r, In r rs -> fair N t r) ->
    (rounds K (rank y) + 4 <= length rs)%nat ->
    exists new, t_log (trun (tstart progs) (s ++ concat rs)) = t_log (trun (tstart progs) s) ++ new /\ In (EReturn t y) new.
  Proof.
    intros S0 F L. rewrite trun_app.
    assert (I : hinv (trun (tstart progs) s)) by (apply (hinv_run N M func progs owner rank K HI), (hinv_start N M func progs owner rank K HI)).
    apply (rounds_return (rank y) t y rs _ I S0 (le_n _) F).
    unfold acost. destruct (left_bound (rank y) _ y I (le_n _)) as [B _]. destruct S0 as [EA|[EA|[EA|EA]]]; rewrite EA; try lia.
    destruct (t_flag (t_timer (trun (tstart progs) s) y)); lia.
  Qed.
End Live.
