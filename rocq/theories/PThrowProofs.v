(** Pipelines whose function throws. *)
From Verif Require Export PThrowSpec PipelineProofs2.

Section P.
  Variable B : nat.
  Variable thr : list agent -> nat -> list Z -> Z -> bool.
  Notation trun := (trun B thr).
  Notation throws_now := (throws_now thr).

  Lemma throws_spec past w a : throws_now past w a = true <-> exists n e v, a = W n /\ calling w n e v /\ thr past n e v = true.
  Proof.
    unfold calling, processed. split.
    - destruct a as [k q|n|]; cbn; try discriminate. destruct (nth_error (p_workers w) n) as [[]|] eqn:EW; try discriminate.
      destruct (nth_error (p_queues w) n) as [q|] eqn:EQ; try discriminate. destruct (rev (q_done q)) as [|v e] eqn:ER; try discriminate.
      intros H. exists n, (rev e), v. split; [reflexivity|]. split; [|exact H]. split; [exact EW|].
      rewrite EQ, <- (rev_involutive (q_done q)), ER. reflexivity.
    - intros (n & e & v & -> & [EW EP] & H). cbn. rewrite EW. destruct (nth_error (p_queues w) n) as [q|]; [|destruct e; discriminate].
      rewrite EP, rev_app_distr. cbn. rewrite rev_involutive. exact H.
  Qed.
  Lemma trun_app s1 : forall past w w1 s2, trun past w s1 = TRun w1 -> trun past w (s1 ++ s2) = trun (past ++ s1) w1 s2.
  Proof.
    induction s1 as [|a s1 IH]; intros past w w1 s2; cbn [PThrowModel.trun app]; [intros [= ->]; rewrite app_nil_r; reflexivity|].
    destruct (throws_now past w a); [discriminate|]. destruct (pstep B w a); try discriminate. intros H.
    rewrite (IH _ _ _ _ H), <- app_assoc. reflexivity.
  Qed.
  Lemma trun_run s : forall past w w', trun past w s = TRun w' -> prun B w s = Ok w'.
  Proof.
    induction s as [|a s IH]; intros past w w'; cbn [PThrowModel.trun prun]; [intros [= ->]; reflexivity|].
    destruct (throws_now past w a); [discriminate|]. destruct (pstep B w a); cbn [bind]; try discriminate. apply IH.
  Qed.
  Lemma run_iff s : forall past w w', trun past w s = TRun w' <->
    prun B w s = Ok w' /\ forall s1 n s2 w1 e v, s = s1 ++ W n :: s2 -> prun B w s1 = Ok w1 -> calling w1 n e v -> thr (past ++ s1) n e v = false.
  Proof.
    induction s as [|a s IH]; intros past w w'; cbn [PThrowModel.trun prun].
    - split; [intros [= ->]; split; [reflexivity|]; intros [|] ? ? ? ? ?; discriminate|]. intros [[= ->] _]. reflexivity.
    - destruct (throws_now past w a) eqn:ET.
      + split; [discriminate|]. intros [_ H]. apply throws_spec in ET. destruct ET as (n & e & v & -> & C & X).
        specialize (H [] n s w e v eq_refl eq_refl C). rewrite app_nil_r in H. congruence.
      + destruct (pstep B w a) as [wa| |] eqn:ES; cbn [bind]; [|split; [discriminate|intros [? _]; discriminate]..].
        rewrite IH. split; intros [R H]; (split; [exact R|]).
        * intros [|b s1] n s2 w1 e v E P C; cbn [app] in E; injection E as E1 E2.
          -- cbn in P. injection P as <-. rewrite app_nil_r. destruct (thr past n e v) eqn:X; [|reflexivity].
             assert (throws_now past w a = true) by (apply throws_spec; exists n, e, v; auto). congruence.
          -- subst b. cbn [prun] in P. rewrite ES in P. cbn [bind] in P. specialize (H s1 n s2 w1 e v E2 P C). rewrite <- app_assoc in H. exact H.
        * intros s1 n s2 w1 e v E P C. rewrite <- app_assoc. apply (H (a :: s1) n s2 w1 e v); [rewrite E; reflexivity| |exact C].
          cbn [prun]. rewrite ES. exact P.
  Qed.
  Lemma dead_iff s : forall past w w', trun past w s = TDead w' <->
    exists s1 n s2 e v, s = s1 ++ W n :: s2 /\ trun past w s1 = TRun w' /\ calling w' n e v /\ thr (past ++ s1) n e v = true.
  Proof.
    intros past w w'. split.
    - revert past w. induction s as [|a s IH]; intros past w; cbn [PThrowModel.trun]; [discriminate|].
      destruct (throws_now past w a) eqn:ET.
      + intros [= <-]. apply throws_spec in ET. destruct ET as (n & e & v & -> & C & X). exists [], n, s, e, v. rewrite app_nil_r. auto.
      + destruct (pstep B w a) as [wa| |] eqn:ES; try discriminate. intros H. destruct (IH _ _ H) as (s1 & n & s2 & e & v & -> & R & C & X).
        exists (a :: s1), n, s2, e, v. rewrite <- app_assoc in X. split; [reflexivity|]. split; [|auto]. cbn [PThrowModel.trun]. rewrite ET, ES. exact R.
    - intros (s1 & n & s2 & e & v & -> & R & C & X). rewrite (trun_app _ _ _ _ _ R). cbn [PThrowModel.trun].
      replace (throws_now (past ++ s1) w' (W n)) with true; [reflexivity|]. symmetry. apply throws_spec. exists n, e, v. auto.
  Qed.

  Lemma undef_not s : forall past w w', trun past w s = TUndef -> prun B w s <> Ok w'.
  Proof.
    induction s as [|a s IH]; intros past w w'; cbn [PThrowModel.trun prun]; [discriminate|].
    destruct (throws_now past w a); [discriminate|]. destruct (pstep B w a); cbn [bind]; try discriminate. apply IH.
  Qed.
  Lemma pushed_given progs s w v : (0 < B)%nat -> prun B (stage_start B progs) s = Ok w -> In v (map snd (pushed w 0)) -> In v (concat progs).
  Proof.
    intros BP R HI. destruct (reach_inv B 1 1 progs BP (le_n 1) s w R) as (_ & _ & _ & HP).
    apply (Permutation_in v HP). apply in_or_app. left. unfold pushed in HI. unfold all_pushed.
    destruct (nth_error (p_queues w) 0) as [q|] eqn:EQ; [|destruct HI]. apply nth_error_In in EQ.
    apply in_concat. exists (map snd (q_log q)). split; [|exact HI]. apply in_map_iff. exists q. auto.
  Qed.
  (** Every call that was left was left without an exception. *)
  Definition good (w : pworld) : Prop := forall n q e v r, nth_error (p_queues w) n = Some q -> q_done q = e ++ v :: r ->
    r <> [] \/ nth_error (p_workers w) n <> Some WCall -> exists past, thr past n e v = false.
  Lemma done_step q1 q2 : q_done q1 = q_done q2 -> forall w w' n, good w ->
    nth_error (p_queues w) n = Some q2 -> p_workers w' = p_workers w -> p_queues w' = upd_nth (p_queues w) n q1 -> good w'.
  Proof.
    intros ED w w' n G E EW EQ m q e v r H D C. rewrite EQ in H. rewrite EW in C. destruct (Nat.eq_dec n m) as [->|N].
    - rewrite upd_same in H by (apply nth_error_Some; congruence). injection H as <-. rewrite ED in D. eapply G; eassumption.
    - rewrite upd_other in H by exact N. eapply G; eassumption.
  Qed.
  Lemma good_step past w a w' : good w -> throws_now past w a = false -> pstep B w a = Ok w' -> good w'.
  Proof.
    intros G T. destruct a as [k n|n|]; cbn [pstep].
    - destruct (nth_error (p_prods w) k) as [p|]; [|intros [= <-]; exact G].
      destruct (pr_pc p) as [|q' i v|q' i v].
      + destruct (pr_items p) as [|v rest]; [intros [= <-]; exact G|]. destruct (nth_error (p_queues w) n) as [q|] eqn:EQ; [|intros [= <-]; exact G].
        intros [= <-]. apply (done_step (take_ticket q k v) q eq_refl w _ n G EQ); reflexivity.
      + intros [= <-]. exact G.
      + destruct (nth_error (p_queues w) q') as [q|] eqn:EQ; [|discriminate]. intros [= <-]. apply (done_step (store B q i v) q eq_refl w _ q' G EQ); reflexivity.
    - destruct (nth_error (p_workers w) n) as [pc|] eqn:EW; [|intros [= <-]; exact G].
      destruct (nth_error (p_queues w) n) as [q|] eqn:EQ; [|discriminate]. destruct (wstep B (p_closed w) q pc) as [[q' pc']| |] eqn:ES; cbn [bind]; try discriminate.
      intros [= <-]. intros m qm e v r H D C. cbn [p_queues p_workers] in *. destruct (Nat.eq_dec n m) as [<-|N].
      2:{ rewrite upd_other in H by exact N. rewrite upd_other in C by exact N. eapply G; eassumption. }
      rewrite upd_same in H by (apply nth_error_Some; congruence). injection H as ->.
      rewrite upd_same in C by (apply nth_error_Some; congruence).
      assert (OLD : pc <> WCall -> forall e v r, q_done q = e ++ v :: r -> exists past, thr past n e v = false).
      { intros NC e0 v0 r0 D0. apply (G n q e0 v0 r0 EQ D0). right. rewrite EW. congruence. }
      destruct pc; cbn [wstep] in ES.
      1-3: injection ES as <- <-; apply (OLD ltac:(discriminate) _ _ _ D).
      + destruct (nth_error (q_slots q) (q_head q mod B)) as [[x|]|]; try discriminate; injection ES as <- <-; apply (OLD ltac:(discriminate) _ _ _ D).
      + injection ES as <- <-. apply (OLD ltac:(discriminate) _ _ _ D).
      + destruct (nth_error (q_slots q) (i mod B)) as [[x|]|]; try discriminate. injection ES as <- <-. cbn [q_done] in D.
        destruct C as [C|C]; [|congruence]. destruct (exists_last C) as (r' & y & ->).
        rewrite app_comm_cons, app_assoc in D. apply app_inj_tail in D. destruct D as [D _]. apply (OLD ltac:(discriminate) _ _ _ D).
      + injection ES as <- <-. destruct r as [|y r]; [|apply (G n q e v (y :: r) EQ D); left; discriminate].
        exists past. destruct (thr past n e v) eqn:X; [|reflexivity].
        assert (throws_now past w (W n) = true); [|congruence]. apply throws_spec. exists n, e, v. split; [reflexivity|]. split; [|exact X].
        split; [exact EW|]. unfold processed. rewrite EQ. exact D.
      + injection ES as <- <-. apply (OLD ltac:(discriminate) _ _ _ D).
    - intros [= <-]. exact G.
  Qed.
  Lemma good_run s : forall past w w', good w -> trun past w s = TRun w' -> good w'.
  Proof.
    induction s as [|a s IH]; intros past w w' G; cbn [PThrowModel.trun]; [intros [= <-]; exact G|].
    destruct (throws_now past w a) eqn:ET; [discriminate|]. destruct (pstep B w a) as [wa| |] eqn:ES; try discriminate.
    apply IH. eapply good_step; eassumption.
  Qed.
  Lemma good_start nq nw progs : good (pstart B nq nw progs).
  Proof.
    intros n q e v r H D. cbn [pstart p_queues] in H. apply nth_error_In, repeat_spec in H. subst q. cbn in D. destruct e; discriminate.
  Qed.
  Lemma good_items nq nw progs s w n e v r : trun [] (pstart B nq nw progs) s = TRun w ->
    processed w n = e ++ v :: r -> r <> [] \/ between_calls w n -> exists past, thr past n e v = false.
  Proof.
    intros R D C. pose proof (good_run _ _ _ _ (good_start nq nw progs) R) as G. unfold processed in D.
    destruct (nth_error (p_queues w) n) as [q|] eqn:EQ; [|destruct e; discriminate]. eapply G; eassumption.
  Qed.
End P.
