(** Threads that only send. *)
From Verif Require Export MedShareProofs.

Section Send.
  Variable hash : string -> Z.
  Variable enc : mty -> Z -> list Z.
  Variable desc : addr -> mdesc.
  Variable l : list addr.               (* the modules registered *)
  Variable tail : list ptr.             (* the slots behind them *)
  Variable progs : nat -> list mcall.
  Hypothesis only : forall t c, In c (progs t) -> exists D v, good_send hash enc desc l c D v.
  Notation gstep := (gstep hash desc).
  Notation gmove := (gmove hash enc desc).
  Notation grun := (grun hash enc desc).
  Notation gbegin := (gbegin hash enc desc).
  Notation good := (good_send hash enc desc l).
  Notation msg_of := (msg_of hash enc).
  Notation mem := (GM (map Some l ++ tail) (length l) l []).

  Definition upto (c : mcall) (D : mty) (v : Z) (i : nat) : list mev :=
    Begin c :: told hash enc desc c ++ map (fun a => Recv a D (enc D v)) (filter (wants desc D) (firstn i l)).
  (** Where a sending thread can be, and what it has done in its call. *)
  Inductive gplace_ok : gpc -> list mcall -> list mev -> Prop :=
  | gp_idle : gplace_ok GIdle [] []
  | gp_hook s v : good (ModSend s v) (md_sends (desc s)) v ->
      gplace_ok (GHook (msg_of (ModSend s v) (md_sends (desc s)) v)) [ModSend s v] [Begin (ModSend s v)]
  | gp_loop c D v i : good c D v -> (i <= length l)%nat -> gplace_ok (GLoop (msg_of c D v) i) [c] (upto c D v i)
  | gp_at c D v i : good c D v -> (i < length l)%nat -> gplace_ok (GAt (msg_of c D v) i) [c] (upto c D v i)
  | gp_call c D v i a : good c D v -> nth_error l i = Some a -> id_of hash desc a <> hash (ty_name D) ->
      gplace_ok (GCall (msg_of c D v) i) [c] (upto c D v i)
  | gp_hand c D v i a : good c D v -> nth_error l i = Some a -> wants desc D a = true ->
      gplace_ok (GHand (msg_of c D v) i a) [c] (upto c D v (S i)).

  Record gsinv (w : gworld) : Prop := {
    gs_mem : g_mem w = mem;
    gs_thr : forall t, exists done cur es, gplace_ok (g_pc (g_thr w t)) cur es /\
               by_gthread t (g_log w) = flat_map (seen hash enc desc l) done ++ es /\
               progs t = done ++ cur ++ g_calls (g_thr w t) }.

  Lemma gsinv_start : gsinv (gstart mem progs).
  Proof. split; [reflexivity|]. intros t. exists [], [], []. split; [constructor|split; reflexivity]. Qed.

  Lemma there_l c D v : good c D v -> sender_there mem (sender c).
  Proof. intros (_ & _ & H & _). destruct (sender c) as [s|]; [|exact Logic.I]. apply H. reflexivity. Qed.
  Lemma module_l i a : nth_error l i = Some a -> gmodule mem i = Ok a.
  Proof.
    intros E. apply nth_error_split in E. destruct E as (p & q & E & <-). apply (gmodule_ok mem p a (map Some q ++ tail)).
    - cbn [g_tab]. rewrite E, map_app, <- app_assoc. reflexivity.
    - cbn [g_objs]. rewrite E. apply in_or_app. right. left. reflexivity.
  Qed.
  Lemma upto_next c D v i a : nth_error l i = Some a ->
    upto c D v (S i) = upto c D v i ++ if wants desc D a then [Recv a D (enc D v)] else [].
  Proof.
    intros E. unfold upto. rewrite (firstn_nth _ _ _ E), filter_app, map_app. cbn [filter map].
    rewrite <- !app_comm_cons, <- app_assoc. destruct (wants desc D a); reflexivity.
  Qed.
  Lemma upto_all c D v : good c D v -> upto c D v (length l) ++ [End c] = seen hash enc desc l c.
  Proof.
    intros (E & _). unfold upto, seen. rewrite E, firstn_all, <- app_comm_cons, <- app_assoc. reflexivity.
  Qed.
  Lemma good_begin c D v : good c D v -> gplace_ok (gbegin c) [c] [Begin c].
  Proof.
    intros G. pose proof G as (E & _). destruct c as [a|a|a x|D' x]; cbn [sent] in E; try discriminate; injection E as <- <-.
    - apply gp_hook, G.
    - pose proof (gp_loop _ _ _ 0 G (Nat.le_0_l _)) as H. exact H.
  Qed.
  Lemma good_same c D v D' v' : good c D v -> good c D' v' -> D' = D /\ v' = v.
  Proof. intros (E & _) (E' & _). rewrite E in E'. injection E' as <- <-. auto. Qed.

  (** A thread's move in a call. *)
  Lemma own_gstep pc cur es : gplace_ok pc cur es -> pc <> GIdle ->
    exists pc' es', gstep mem pc = Ok (mem, pc', es') /\
      ((gplace_ok pc' cur (es ++ es') /\ cur <> []) \/
       (pc' = GIdle /\ exists c, cur = [c] /\ es ++ es' = seen hash enc desc l c)).
  Proof.
    intros P N. destruct P as [|s v G|c D v i G L|c D v i G L|c D v i a G E NI|c D v i a G E W].
    - congruence.
    - eexists. eexists. split.
      + cbn [MedShareModel.gstep MedShareProofs.msg_of g_snd g_id g_bs]. rewrite (gsender_ok mem _ (there_l _ _ _ G)). reflexivity.
      + left. split; [|discriminate]. exact (gp_loop _ _ _ 0 G (Nat.le_0_l _)).
    - cbn [MedShareModel.gstep g_cnt]. destruct (Nat.ltb_spec i (length l)).
      + eexists. eexists. split; [reflexivity|]. left. split; [|discriminate]. rewrite app_nil_r. constructor; assumption.
      + eexists. eexists. split; [reflexivity|]. right. split; [reflexivity|]. exists c. split; [reflexivity|].
        replace i with (length l) by lia. apply (upto_all c D v G).
    - destruct (nth_error l i) as [a|] eqn:E; [|apply nth_error_None in E; lia].
      cbn [MedShareModel.gstep MedShareProofs.msg_of g_snd g_id]. rewrite (module_l i a E). cbn [bind].
      rewrite (gsender_ok mem _ (there_l _ _ _ G)). cbn [bind]. destruct (Z.eqb_spec (id_of hash desc a) (hash (ty_name D))) as [EI|NI].
      + eexists. eexists. split; [reflexivity|]. left. split; [|discriminate]. rewrite app_nil_r.
        assert (W : wants desc D a = false).
        { destruct G as (_ & _ & _ & HU). unfold wants. destruct (in_dec mty_eq_dec D (md_recvs (desc a))); [|reflexivity].
          destruct (mty_eq_dec (md_sends (desc a)) D) as [|NE]; [reflexivity|]. exfalso. apply NE, HU; [|exact EI]. exists a. left. reflexivity. }
        pose proof (gp_loop c D v (S i) G L) as H. rewrite (upto_next c D v i a E), W, app_nil_r in H. exact H.
      + eexists. eexists. split; [reflexivity|]. left. split; [|discriminate]. rewrite app_nil_r. apply (gp_call c D v i a); assumption.
    - pose proof G as (ES & HL & _ & HU). cbn [MedShareModel.gstep MedShareProofs.msg_of g_snd g_id g_bs]. rewrite (module_l i a E). cbn [bind].
      rewrite (gsender_ok mem _ (there_l _ _ _ G)). cbn [bind]. rewrite grecv_find. cbn [bind g_part].
      pose proof (reaction_wants desc hash enc D (enc D v) a HL HU) as RW. unfold reaction in RW.
      destruct (Z.eqb_spec (id_of hash desc a) (hash (ty_name D))) as [EI|_]; [contradiction|].
      assert (LT : (S i <= length l)%nat) by (apply nth_error_Some; congruence).
      destruct (find (fun D0 => hash (ty_name D) =? hash (ty_name D0)) (md_recvs (desc a))) as [D'|];
        [destruct (ty_size D' =? length (enc D v))%nat|].
      + destruct (wants desc D a) eqn:W; [|discriminate RW]. injection RW as ->. destruct (in_dec Pos.eq_dec a []) as [[]|_].
        eexists. eexists. split; [reflexivity|]. left. split; [|discriminate].
        pose proof (gp_hand c D v i a G E W) as H. rewrite (upto_next c D v i a E), W in H. exact H.
      + destruct (wants desc D a) eqn:W; [discriminate RW|].
        eexists. eexists. split; [reflexivity|]. left. split; [|discriminate].
        pose proof (gp_loop c D v (S i) G LT) as H. rewrite (upto_next c D v i a E), W in H. exact H.
      + destruct (wants desc D a) eqn:W; [discriminate RW|].
        eexists. eexists. split; [reflexivity|]. left. split; [|discriminate].
        pose proof (gp_loop c D v (S i) G LT) as H. rewrite (upto_next c D v i a E), W in H. exact H.
    - eexists. eexists. split; [reflexivity|]. left. split; [|discriminate]. rewrite app_nil_r. apply gp_loop; [exact G|].
      apply nth_error_Some. congruence.
  Qed.

  Lemma gsinv_step w t : gsinv w -> exists w', gmove w t = Ok w' /\ gsinv w'.
  Proof.
    intros I. destruct (gs_thr w I t) as (done & cur & es & P & EB & EP).
    assert (D : g_pc (g_thr w t) = GIdle \/ g_pc (g_thr w t) <> GIdle) by (destruct (g_pc (g_thr w t)); auto; right; discriminate).
    destruct D as [D|D].
    - unfold MedShareModel.gmove. rewrite D. destruct (g_calls (g_thr w t)) as [|c rest] eqn:EC.
      + exists w. auto.
      + assert (ESS : es = [] /\ cur = []) by (rewrite D in P; inversion P; auto). destruct ESS as [-> ->].
        destruct (only t c) as (D0 & v & G); [rewrite EP; apply in_or_app; right; left; reflexivity|].
        eexists. split; [reflexivity|]. split; cbn [g_mem g_thr g_log]; [apply (gs_mem w I)|].
        intros a. rewrite by_gthread_app. change [(t, Begin c)] with (map (pair t) [Begin c]). destruct (Nat.eq_dec a t) as [->|NA].
        * rewrite gput_same, by_gthread_own. exists done, [c], [Begin c]. cbn [g_pc g_calls].
          split; [apply (good_begin c D0 v G)|]. split; [rewrite EB, app_nil_r; reflexivity|rewrite EP; reflexivity].
        * rewrite gput_other, by_gthread_other, app_nil_r by auto. apply (gs_thr w I).
    - destruct (own_gstep _ cur es P D) as (pc' & es' & ST & OUT).
      rewrite (gmove_in hash enc desc w t _ eq_refl D), (gs_mem w I), ST. cbn [bind].
      eexists. split; [reflexivity|]. split; cbn [g_mem g_thr g_log]; [reflexivity|].
      intros a. rewrite by_gthread_app. destruct (Nat.eq_dec a t) as [->|NA].
      + rewrite gput_same, by_gthread_own. cbn [g_pc g_calls]. destruct OUT as [(P' & _)|(-> & c & -> & ES)].
        * exists done, cur, (es ++ es'). split; [exact P'|]. split; [rewrite EB, app_assoc; reflexivity|exact EP].
        * exists (done ++ [c]), [], []. split; [constructor|]. split.
          -- rewrite EB, flat_map_app, app_nil_r, <- app_assoc, ES. cbn. rewrite app_nil_r. reflexivity.
          -- rewrite EP, <- app_assoc. reflexivity.
      + rewrite gput_other, by_gthread_other, app_nil_r by auto. apply (gs_thr w I).
  Qed.
  Lemma gsinv_run s : forall w, gsinv w -> exists w', grun w s = Ok w' /\ gsinv w'.
  Proof.
    induction s as [|t s IH]; intros w I; cbn; [eauto|]. destruct (gsinv_step w t I) as (w1 & -> & I1). cbn. apply IH, I1.
  Qed.

  (** What is still to come in a call. *)
  Lemma place_prefix pc cur es : gplace_ok pc cur es -> exists rest, flat_map (seen hash enc desc l) cur = es ++ rest.
  Proof.
    assert (U : forall c D v i, good c D v -> exists rest, seen hash enc desc l c = upto c D v i ++ rest).
    { intros c D v i G. exists (map (fun a => Recv a D (enc D v)) (filter (wants desc D) (skipn i l)) ++ [End c]).
      rewrite <- (upto_all c D v G). unfold upto. rewrite firstn_all. rewrite <- (firstn_skipn i l) at 1.
      rewrite filter_app, map_app, <- !app_comm_cons, <- !app_assoc. reflexivity. }
    intros P. destruct P as [|s v G|c D v i G L|c D v i G L|c D v i a G E NI|c D v i a G E W]; cbn [flat_map]; rewrite ?app_nil_r;
      [exists []; reflexivity| |eapply U; eassumption..].
    pose proof G as (E & _). unfold seen. rewrite E. eexists. cbn [app]. reflexivity.
  Qed.

  (** Own steps a thread still needs. *)
  Definition gcost (pc : gpc) : nat :=
    match pc with
    | GHook _ => 2 + 4 * length l
    | GLoop _ i => 1 + 4 * (length l - i)
    | GAt _ i => 4 * (length l - i)
    | GCall _ i => 4 * (length l - i) - 1
    | GHand _ i _ => 4 * (length l - i) - 2
    | _ => 0
    end.
  Definition gneed (th : gthread) : nat := length (g_calls th) * (3 + 4 * length l) + gcost (g_pc th).
  Lemma gneed_step w t w' : gsinv w -> gmove w t = Ok w' ->
    (gneed (g_thr w' t) <= gneed (g_thr w t) - 1)%nat /\ forall u, u <> t -> g_thr w' u = g_thr w u.
  Proof.
    intros I E. destruct (gs_thr w I t) as (done & cur & es & P & EB & EP).
    assert (D : g_pc (g_thr w t) = GIdle \/ g_pc (g_thr w t) <> GIdle) by (destruct (g_pc (g_thr w t)); auto; right; discriminate).
    destruct D as [D|D].
    - unfold MedShareModel.gmove in E. rewrite D in E. destruct (g_calls (g_thr w t)) as [|c rest] eqn:ECL.
      + injection E as <-. split; [|auto]. unfold gneed. rewrite ECL, D. cbn. lia.
      + injection E as <-. cbn [g_thr]. rewrite gput_same. split; [|intros u NU; apply gput_other, NU].
        destruct (only t c) as (D0 & v & G); [rewrite EP; apply in_or_app; right; apply in_or_app; right; left; reflexivity|].
        unfold gneed. rewrite ECL, D. cbn [g_calls g_pc length gcost].
        assert (gcost (gbegin c) <= 2 + 4 * length l)%nat; [|lia].
        destruct G as (EG & _). destruct c; cbn [sent] in EG; try discriminate; cbn [MedShareModel.gbegin gcost]; lia.
    - rewrite (gmove_in hash enc desc w t _ eq_refl D), (gs_mem w I) in E.
      destruct (gstep mem (g_pc (g_thr w t))) as [[[m' pc'] es']| |] eqn:ST; cbn [bind] in E; try discriminate.
      injection E as <-. cbn [g_thr]. rewrite gput_same. split; [|intros u NU; apply gput_other, NU].
      unfold gneed. cbn [g_calls g_pc].
      assert (G : (gcost pc' <= gcost (g_pc (g_thr w t)) - 1 /\ 0 < gcost (g_pc (g_thr w t)))%nat); [|lia].
      clear EP I EB.
      destruct P as [|s v G|c D0 v i G L|c D0 v i G L|c D0 v i a G E NI|c D0 v i a G E W];
        try (assert (LT : (i < length l)%nat) by (apply nth_error_Some; congruence)); cbn [MedShareModel.gstep g_cnt] in ST.
      + congruence.
      + destruct (gsender mem _); cbn [bind] in ST; try discriminate. injection ST as _ <- _. cbn [gcost]. lia.
      + destruct (Nat.ltb_spec i (length l)); injection ST as _ <- _; cbn [gcost]; lia.
      + destruct (gmodule mem i); cbn [bind] in ST; try discriminate. destruct (gsender mem _); cbn [bind] in ST; try discriminate.
        injection ST as _ <- _. destruct (_ =? _); cbn [gcost]; lia.
      + destruct (gmodule mem i); cbn [bind] in ST; try discriminate. destruct (gsender mem _); cbn [bind] in ST; try discriminate.
        rewrite grecv_find in ST. cbn [bind] in ST.
        match type of ST with match ?x with _ => _ end = _ => destruct x as [[D1 got]|] end.
        * destruct (in_dec _ _ _); [discriminate|]. injection ST as _ <- _. cbn [gcost]. lia.
        * injection ST as _ <- _. cbn [gcost]. lia.
      + injection ST as _ <- _. cbn [gcost]. lia.
  Qed.
  Lemma gneed_run s : forall w w' t, gsinv w -> grun w s = Ok w' -> (gneed (g_thr w' t) <= gneed (g_thr w t) - count_occ Nat.eq_dec s t)%nat.
  Proof.
    induction s as [|u s IH]; intros w w' t I E; cbn [MedShareModel.grun] in E.
    - injection E as <-. cbn. lia.
    - destruct (gsinv_step w u I) as (w1 & E1 & I1). rewrite E1 in E. cbn [bind] in E. specialize (IH w1 w' t I1 E).
      destruct (gneed_step w u w1 I E1) as [H1 H2]. cbn [count_occ]. destruct (Nat.eq_dec u t) as [->|N]; [lia|].
      rewrite (H2 t) in IH by auto. exact IH.
  Qed.
  Lemma gneed_zero w t : gsinv w -> gneed (g_thr w t) = 0%nat -> g_thr w t = GTh [] GIdle /\ by_gthread t (g_log w) = flat_map (seen hash enc desc l) (progs t).
  Proof.
    intros I Z. destruct (gs_thr w I t) as (done & cur & es & P & EB & EP). destruct (g_thr w t) as [calls pc].
    unfold gneed in Z. cbn [g_calls g_pc] in *.
    destruct P as [|s v G|c D0 v i G L|c D0 v i G L|c D0 v i a G E NI|c D0 v i a G E W];
      try (assert (LT : (i < length l)%nat) by (apply nth_error_Some; congruence)); cbn [gcost] in Z; try (exfalso; lia).
    destruct calls as [|c calls]; [|cbn [length] in Z; exfalso; lia]. split; [reflexivity|].
    rewrite EP, EB, !app_nil_r. reflexivity.
  Qed.
  (** No thread is about to write. *)
  Lemma no_write w t p : gsinv w -> gaccess (g_pc (g_thr w t)) <> Some (p, true).
  Proof.
    intros I. destruct (gs_thr w I t) as (done & cur & es & P & _). destruct P; cbn; discriminate.
  Qed.
End Send.
