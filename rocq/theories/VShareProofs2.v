From Verif Require Export VShareProofs.

(** ** one thread updates, any number of threads read *)
Section Writer.
  Variable t : ity.
  Variable obs : list addr.
  Variable cb : addr -> bool.
  Variable i : nat.
  Hypothesis T : ity_ok t.
  Notation move := (move t obs cb).
  Notation rest_of_update := (rest_of_update obs cb).

  Definition next_of (w : gworld) : list gev := match nth_error (g_threads w) i with Some th => g_next th | None => [] end.
  Definition alone (w : gworld) : Prop :=
    forall j th, nth_error (g_threads w) j = Some th -> j <> i -> g_next th = [] /\ forall c, In c (g_todo th) -> is_update c = false.
  Definition is_read (e : gev) : Prop := match e with Got _ | GotSeen _ _ => True | _ => False end.

  Lemma nth_mid {A} (l1 l2 : list A) x : nth_error (l1 ++ x :: l2) (length l1) = Some x.
  Proof. rewrite nth_error_app2, Nat.sub_diag by lia. reflexivity. Qed.
  Lemma next_mid w l1 l2 th : g_threads w = l1 ++ th :: l2 -> length l1 = i -> next_of w = g_next th.
  Proof. intros E L. unfold next_of. rewrite E, <- L, nth_mid. reflexivity. Qed.
  Lemma next_other v m log l1 l2 th th' j w : g_threads w = l1 ++ th :: l2 -> length l1 = j -> j <> i -> next_of (GW v m (l1 ++ th' :: l2) log) = next_of w.
  Proof. intros E L N. unfold next_of. cbn [g_threads]. rewrite E, (mid l1 l2 th th' i). destruct (Nat.eqb_spec i (length l1)); [lia|reflexivity]. Qed.
  Lemma next_same v m log l1 l2 th' : length l1 = i -> next_of (GW v m (l1 ++ th' :: l2) log) = g_next th'.
  Proof. intros L. unfold next_of. cbn [g_threads]. rewrite <- L, nth_mid. reflexivity. Qed.

  Lemma alone_move w j w' : alone w -> move w j w' -> alone w'.
  Proof.
    intros A M k th E N.
    assert (GO : forall l1 l2 th0 th1, g_threads w = l1 ++ th0 :: l2 -> length l1 = j ->
      nth_error (l1 ++ th1 :: l2) k = Some th -> (j <> i -> g_next th0 = [] -> (forall c, In c (g_todo th0) -> is_update c = false) -> g_next th1 = [] /\ forall c, In c (g_todo th1) -> is_update c = false) ->
      g_next th = [] /\ forall c, In c (g_todo th) -> is_update c = false).
    { intros l1 l2 th0 th1 EL LL EK STEP. rewrite (mid l1 l2 th0 th1 k), LL in EK. destruct (Nat.eqb_spec k j) as [->|NE].
      - injection EK as <-. destruct (A j th0) as [A1 A2]; [rewrite EL, <- LL; apply nth_mid|exact N|]. exact (STEP N A1 A2).
      - rewrite <- EL in EK. exact (A k th EK N). }
    destruct M as [l1 l2 todo e next EL LL|l1 l2 todo op p EL LL EP|l1 l2 todo EL LL|l1 l2 todo o EL LL]; cbn [g_threads] in E;
      eapply GO; try exact EL; try exact LL; try exact E; cbn [g_next g_todo]; intros NI A1 A2.
    - discriminate A1.
    - specialize (A2 (GUpd op) (or_introl eq_refl)). discriminate A2.
    - split; [reflexivity|]. intros c C. apply A2. right. exact C.
    - split; [reflexivity|]. intros c C. apply A2. right. exact C.
  Qed.
  Lemma alone_start v m progs : one_writer i progs -> alone (gstart v m progs).
  Proof.
    intros H j th E N. cbn [gstart g_threads] in E. rewrite nth_error_map in E. destruct (nth_error progs j) as [p|] eqn:EP; [|discriminate].
    injection E as <-. cbn. split; [reflexivity|]. intros c C. destruct (is_update c) eqn:U; [|reflexivity]. destruct (N (H j p c EP C U)).
  Qed.

  (** The state between the writer's steps. *)
  Definition writing (v : Z) (m : addr -> Z) (w : gworld) : Prop :=
    (Forall is_read (of_thread i (g_log w)) /\ next_of w = [] /\ g_mirror w = m /\ g_val w = v /\ before_last v (g_log w) = v) \/
    exists es op x p pre rd, of_thread i (g_log w) = es ++ [Updated op x p] ++ pre ++ rd /\ pre ++ next_of w = rest_of_update p /\
      (rd = [] \/ next_of w = []) /\ Forall is_read rd /\ g_val w = p /\ before_last v (g_log w) = x /\
      (forall o, In (Stored o p) pre -> g_mirror w o = p) /\
      ((forall o, In o obs -> m o = v) -> forall o, In o obs -> g_mirror w o = p \/ g_mirror w o = x).

  Lemma rest_stored p o : In o obs -> In (Stored o p) (rest_of_update p).
  Proof. intros O. unfold VShareModel.rest_of_update. apply in_or_app. left. apply in_flat_map. exists o. split; [exact O|left; reflexivity]. Qed.
  Lemma rest_value p e : In e (rest_of_update p) -> match e with Stored _ n | Entered _ n | Left _ n | Returned n => n = p | _ => False end.
  Proof.
    unfold VShareModel.rest_of_update. intros E. apply in_app_or in E. destruct E as [E|[<-|[]]]; [|reflexivity]. apply in_flat_map in E. destruct E as (o & _ & E).
    unfold tell in E. destruct (cb o); cbn in E; [destruct E as [<-|[<-|[<-|[]]]]|destruct E as [<-|[]]]; reflexivity.
  Qed.
  Lemma tell_order p o n pre post : rest_of_update p = (pre ++ [Entered o n]) ++ post -> In (Stored o p) pre.
  Proof.
    unfold VShareModel.rest_of_update. revert pre. induction obs as [|y l IH]; intros pre E; cbn [flat_map app] in E.
    - exfalso. apply (f_equal (fun z => In (Entered o n) z)) in E. assert (In (Entered o n) [Returned p]) as [?|[]].
      { rewrite E. apply in_or_app. left. apply in_or_app. right. left. reflexivity. } discriminate.
    - unfold tell in E at 1. destruct (cb y); cbn [app] in E.
      + destruct pre as [|a pre]; [discriminate E|]. injection E as <- E. destruct pre as [|b pre]; [injection E as <- _ _; left; reflexivity|].
        injection E as <- E. destruct pre as [|c pre]; [discriminate E|]. injection E as <- E. right. right. right. apply IH. exact E.
      + destruct pre as [|a pre]; [discriminate E|]. injection E as <- E. right. apply IH. exact E.
  Qed.

  Lemma writing_move v m w j w' : alone w -> only (fun op => faithful_op op = true) w -> writing v m w -> move w j w' -> writing v m w'.
  Proof.
    intros A ON H M.
    assert (NX : forall l1 l2 th, g_threads w = l1 ++ th :: l2 -> length l1 = j -> j <> i -> g_next th = [] /\ forall c, In c (g_todo th) -> is_update c = false).
    { intros l1 l2 th E L N. apply (A j th); [rewrite E, <- L; apply nth_mid|exact N]. }
    assert (RD : forall l1 l2 c todo e, g_threads w = l1 ++ GT (c :: todo) [] :: l2 -> length l1 = j -> is_read e ->
      writing v m (GW (g_val w) (g_mirror w) (l1 ++ GT todo [] :: l2) (g_log w ++ [(j, e)]))).
    { intros l1 l2 c todo e EL LL IR.
      assert (NS : next_of (GW (g_val w) (g_mirror w) (l1 ++ GT todo [] :: l2) (g_log w ++ [(j, e)])) = next_of w).
      { destruct (Nat.eq_dec j i) as [->|NE]; [|apply (next_other _ _ _ l1 l2 _ _ j w EL LL NE)]. rewrite next_same by exact LL. rewrite (next_mid w l1 l2 _ EL LL). reflexivity. }
      assert (BL : before_last v (g_log w ++ [(j, e)]) = before_last v (g_log w)) by (rewrite before_snoc; destruct e; try contradiction; reflexivity).
      unfold writing. rewrite NS. cbn [g_log g_val g_mirror]. rewrite BL, of_thread_snoc.
      destruct H as [(H1 & H2)|(es & op & x & p & pre & rd & H1 & H2 & H3 & H4 & H5)].
      - left. split; [|exact H2]. apply Forall_app. split; [exact H1|]. destruct (j =? i)%nat; [constructor; [exact IR|constructor]|constructor].
      - right. destruct (Nat.eqb_spec j i) as [->|NE].
        + assert (N0 : next_of w = []) by (rewrite (next_mid w l1 l2 _ EL LL); reflexivity).
          exists es, op, x, p, pre, (rd ++ [e]). split; [rewrite H1, <- !app_assoc; reflexivity|]. split; [exact H2|]. split; [right; exact N0|].
          split; [|exact H5]. apply Forall_app. split; [exact H4|]. constructor; [exact IR|constructor].
        + exists es, op, x, p, pre, rd. rewrite app_nil_r. auto. }
    destruct M as [l1 l2 todo e next EL LL|l1 l2 todo op p EL LL EP|l1 l2 todo EL LL|l1 l2 todo o EL LL].
    - destruct (Nat.eq_dec j i) as [->|NE]; [|destruct (NX _ _ _ EL LL NE) as [X _]; discriminate X].
      pose proof (next_mid w l1 l2 _ EL LL) as N0. cbn [g_next] in N0. right.
      destruct H as [(_ & H2 & _)|(es & op & x & p & pre & rd & H1 & H2 & H3 & H4 & H5 & H6 & H7 & H8)]; [congruence|].
      destruct H3 as [->|H3]; [|congruence]. rewrite app_nil_r in H1. rewrite N0 in H2.
      assert (IE : In e (rest_of_update p)) by (rewrite <- H2; apply in_or_app; right; left; reflexivity). pose proof (rest_value p e IE) as EV.
      exists es, op, x, p, (pre ++ [e]), []. rewrite next_same by exact LL. cbn [g_log g_val g_mirror g_next]. rewrite of_thread_snoc, Nat.eqb_refl, H1.
      split; [rewrite app_nil_r, <- !app_assoc; reflexivity|]. split; [rewrite <- app_assoc; exact H2|]. split; [left; reflexivity|]. split; [constructor|]. split; [exact H5|].
      split; [rewrite before_snoc; destruct e; try contradiction; exact H6|]. split.
      + intros o O. apply in_app_or in O. destruct O as [O|[->|[]]].
        * destruct e as [|o' n'| | | | |]; try (apply H7, O). subst n'. unfold set_mirror. destruct (Pos.eqb o o'); [reflexivity|apply H7, O].
        * unfold set_mirror. rewrite Pos.eqb_refl. reflexivity.
      + intros B o O. destruct e as [|o' n'| | | | |]; try (apply (H8 B o O)). subst n'. unfold set_mirror. destruct (Pos.eqb o o'); [left; reflexivity|apply (H8 B o O)].
    - destruct (Nat.eq_dec j i) as [->|NE]; [|destruct (NX _ _ _ EL LL NE) as [_ X]; specialize (X (GUpd op) (or_introl eq_refl)); discriminate X].
      pose proof (next_mid w l1 l2 _ EL LL) as N0. cbn [g_next] in N0.
      assert (FA : faithful_op op = true) by (apply (ON (GT (GUpd op :: todo) []) op); [rewrite EL; apply in_or_app; right; left; reflexivity|left; reflexivity]).
      assert (PV : apply_atomic t (g_val w) op = p). { symmetry. exact (published_faithful t (g_val w) op p T FA EP). }
      right. exists (of_thread i (g_log w)), op, (g_val w), p, [], []. rewrite next_same by exact LL. cbn [g_log g_val g_mirror g_next]. rewrite of_thread_snoc, Nat.eqb_refl.
      split; [reflexivity|]. split; [reflexivity|]. split; [left; reflexivity|]. split; [constructor|]. split; [exact PV|].
      split; [rewrite before_snoc; reflexivity|]. split; [intros o []|]. intros B o O. right.
      destruct H as [(_ & _ & H2 & H3 & _)|(es & op' & x & p' & pre & rd & H1 & H2 & _ & _ & H5 & _ & H7 & _)].
      + rewrite H2, H3. exact (B o O).
      + rewrite N0, app_nil_r in H2. rewrite H5. apply H7. rewrite H2. apply rest_stored, O.
    - exact (RD l1 l2 GValue todo (Got (g_val w)) EL LL Logic.I).
    - exact (RD l1 l2 (GSeen o) todo (GotSeen o (g_mirror w o)) EL LL Logic.I).
  Qed.

  Definition state_ok (v : Z) (m : addr -> Z) (w : gworld) : Prop := tidy w /\ alone w /\ only (fun op => faithful_op op = true) w /\ writing v m w.
  Lemma state_move v m w j w' : state_ok v m w -> move w j w' -> state_ok v m w'.
  Proof.
    intros (T1 & A & O & W) M. split; [exact (tidy_move t obs cb w j w' T1 M)|]. split; [exact (alone_move w j w' A M)|].
    split; [exact (only_move t obs cb _ w j w' O M)|exact (writing_move v m w j w' A O W M)].
  Qed.
  Lemma state_start v m progs : one_writer i progs -> only_ops (fun op => faithful_op op = true) progs -> state_ok v m (gstart v m progs).
  Proof.
    intros OW OO. split; [apply tidy_start|]. split; [apply alone_start, OW|]. split; [apply only_start, OO|]. left. cbn. split; [constructor|].
    split; [|auto]. unfold next_of. cbn [gstart g_threads]. rewrite nth_error_map. destruct (nth_error progs i); reflexivity.
  Qed.
  Lemma run_state v m progs s w : one_writer i progs -> only_ops (fun op => faithful_op op = true) progs -> grun t obs cb (gstart v m progs) s = Ok w -> state_ok v m w.
  Proof. intros OW OO. apply (grun_inv t obs cb (state_ok v m)); [intros; eapply state_move; eauto|apply state_start; assumption]. Qed.

  Lemma snoc_cases {A} (l : list A) : l = [] \/ exists l' x, l = l' ++ [x].
  Proof. induction l as [|a l IH] using rev_ind; [left; reflexivity|right; eauto]. Qed.

  Lemma writing_function v m w o n : writing v m w -> in_function i o n (g_log w) -> g_mirror w o = n /\ g_val w = n.
  Proof.
    intros H (fs & EF). destruct H as [(H1 & _)|(es & op & x & p & pre & rd & H1 & H2 & H3 & H4 & H5 & H6 & H7 & _)].
    - exfalso. rewrite EF in H1. apply Forall_app in H1. destruct H1 as [_ H1]. inversion H1; subst. contradiction.
    - rewrite EF in H1. destruct (snoc_cases rd) as [->|(rd' & y & ->)].
      + destruct (snoc_cases pre) as [->|(pre' & y & ->)].
        * cbn [app] in H1. apply app_inj_tail in H1. destruct H1 as [_ H1]. discriminate.
        * rewrite app_nil_r in H1. rewrite !app_assoc in H1. apply app_inj_tail in H1. destruct H1 as [_ <-].
          assert (EV := rest_value p (Entered o n)). rewrite <- H2 in EV. specialize (EV ltac:(apply in_or_app; left; apply in_or_app; right; left; reflexivity)). cbn in EV. subst n.
          split; [|exact H5]. apply H7. apply in_or_app. left. symmetry in H2. exact (tell_order p o p pre' (next_of w) H2).
      + exfalso. rewrite !app_assoc in H1. apply app_inj_tail in H1. destruct H1 as [_ <-]. apply Forall_app in H4. destruct H4 as [_ H4]. inversion H4; subst. contradiction.
  Qed.
  Lemma writing_return v m w es p : writing v m w -> of_thread i (g_log w) = es ++ [Returned p] -> g_val w = p /\ forall o, In o obs -> g_mirror w o = p.
  Proof.
    intros H EF. destruct H as [(H1 & _)|(es' & op & x & p' & pre & rd & H1 & H2 & H3 & H4 & H5 & H6 & H7 & _)].
    - exfalso. rewrite EF in H1. apply Forall_app in H1. destruct H1 as [_ H1]. inversion H1; subst. contradiction.
    - rewrite EF in H1. destruct (snoc_cases rd) as [->|(rd' & y & ->)].
      + destruct (snoc_cases pre) as [->|(pre' & y & ->)].
        * cbn [app] in H1. apply app_inj_tail in H1. destruct H1 as [_ H1]. discriminate.
        * rewrite app_nil_r in H1. rewrite !app_assoc in H1. apply app_inj_tail in H1. destruct H1 as [_ <-].
          assert (EV := rest_value p' (Returned p)). rewrite <- H2 in EV. specialize (EV ltac:(apply in_or_app; left; apply in_or_app; right; left; reflexivity)). cbn in EV. subst p.
          split; [exact H5|]. intros o O. apply H7. apply in_or_app. left. pose proof (rest_stored p' o O) as IN. rewrite <- H2 in IN.
          (* the return comes last *)
          assert (NX : next_of w = []).
          { unfold VShareModel.rest_of_update in H2. assert (NR : forall l, ~ In (Returned p') (flat_map (tell cb p') l)).
            { intros l IR. apply in_flat_map in IR. destruct IR as (y & _ & IR). unfold tell in IR. destruct (cb y); cbn in IR; intuition discriminate. }
            destruct (snoc_cases (next_of w)) as [->|(nx & z & E)]; [reflexivity|exfalso]. rewrite E in H2.
            rewrite app_assoc in H2. apply app_inj_tail in H2. destruct H2 as [H2 _]. apply (NR obs). rewrite <- H2. apply in_or_app. left. apply in_or_app. right. left. reflexivity. }
          rewrite NX, app_nil_r in IN. apply in_app_or in IN. destruct IN as [IN|[IN|[]]]; [exact IN|discriminate IN].
      + exfalso. rewrite !app_assoc in H1. apply app_inj_tail in H1. destruct H1 as [_ <-]. apply Forall_app in H4. destruct H4 as [_ H4]. inversion H4; subst. contradiction.
  Qed.
  Lemma writing_lag v m w o : writing v m w -> (forall o, In o obs -> m o = v) -> In o obs -> g_mirror w o = g_val w \/ g_mirror w o = before_last v (g_log w).
  Proof.
    intros H B O. destruct H as [(_ & _ & H2 & H3 & _)|(es & op & x & p & pre & rd & _ & _ & _ & _ & H5 & H6 & _ & H8)].
    - left. rewrite H2, H3. exact (B o O).
    - rewrite H5, H6. exact (H8 B o O).
  Qed.

  (** ** readers of an observed *)
  Definition follows (v : Z) (o : addr) (w : gworld) : Prop :=
    increasing (reads_of o (g_log w)) /\ Forall (fun y => y <= g_mirror w o) (reads_of o (g_log w)) /\ before_last v (g_log w) <= g_val w.
  Lemma follows_move v m o w j w' : (forall o, In o obs -> m o = v) -> In o obs -> state_ok v m w -> state_ok v m w' ->
    (forall op p, published t (g_val w) op = Ok p -> g_val w' = p -> g_val w <= p) -> g_val w <= g_val w' ->
    follows v o w -> move w j w' -> follows v o w'.
  Proof.
    intros B O SW SW' _ LE (F1 & F2 & F3) M. pose proof (proj1 SW) as TD. unfold follows.
    assert (MI : g_mirror w o <= g_mirror w' o).
    { destruct SW as (_ & AL & _ & W). pose proof (writing_lag v m w o W B O) as LG.
      destruct M as [l1 l2 todo e next EL LL|l1 l2 todo op p EL LL EP|l1 l2 todo EL LL|l1 l2 todo o' EL LL]; cbn [g_mirror]; try lia.
      destruct e as [|o' n| | | | |]; try lia. unfold set_mirror. destruct (Pos.eqb_spec o o') as [<-|]; [|lia].
      assert (j = i). { destruct (Nat.eq_dec j i) as [|NE]; [assumption|]. destruct (AL j (GT todo (Stored o n :: next))) as [X _]; [rewrite EL, <- LL; apply nth_mid|exact NE|discriminate X]. }
      destruct W as [(_ & H2 & _)|(es & op & x & p & pre & rd & _ & H2 & _ & _ & H5 & _)].
      - rewrite (next_mid w l1 l2 _ EL ltac:(congruence)) in H2. discriminate.
      - rewrite (next_mid w l1 l2 _ EL ltac:(congruence)) in H2. assert (EV := rest_value p (Stored o n)). rewrite <- H2 in EV.
        specialize (EV ltac:(apply in_or_app; right; left; reflexivity)). cbn in EV. subst n. lia. }
    assert (UP : Forall (fun y => y <= g_mirror w' o) (reads_of o (g_log w))).
    { apply Forall_forall. intros y Y. rewrite Forall_forall in F2. specialize (F2 y Y). lia. }
    destruct M as [l1 l2 todo e next EL LL|l1 l2 todo op p EL LL EP|l1 l2 todo EL LL|l1 l2 todo o' EL LL]; cbn [g_log g_val g_mirror] in *; rewrite reads_of_snoc, before_snoc.
    - pose proof (tidy_mid w l1 l2 todo e next TD EL) as WE. destruct e; cbn in WE; try contradiction; rewrite app_nil_r; auto.
    - rewrite app_nil_r. auto.
    - rewrite app_nil_r. auto.
    - destruct (Pos.eqb_spec o' o) as [->|]; [|rewrite app_nil_r; auto]. split; [apply increasing_snoc; assumption|]. split; [|exact F3].
      apply Forall_app. split; [exact F2|]. constructor; [lia|constructor].
  Qed.
  Lemma run_follows v m progs s w o : in_ity t v -> v + Z.of_nat (updates progs) <= hi t -> one_writer i progs -> only_ops (fun op => op = PreInc) progs ->
    (forall o, In o obs -> m o = v) -> In o obs -> grun t obs cb (gstart v m progs) s = Ok w -> increasing (reads_of o (g_log w)).
  Proof.
    intros V BD OW ON B O E.
    assert (OO : only_ops (fun op => faithful_op op = true) progs) by (intros p op I1 I2; rewrite (ON p op I1 I2); reflexivity).
    apply (grun_inv t obs cb (fun w => (state_ok v m w /\ only (fun op => op = PreInc) w /\ counted t v (updates progs) w) /\ follows v o w)
      ltac:(intros w0 j w1 [(SO & ON0 & C) F] M;
            assert (SO1 := state_move v m w0 j w1 SO M);
            assert (C1 := counted_move t obs cb v _ w0 j w1 T (proj1 SO) ON0 C M);
            split; [split; [exact SO1|split; [exact (only_move t obs cb _ w0 j w1 ON0 M)|exact C1]]|];
            assert (LE : g_val w0 <= g_val w1) by (rewrite (value_now t v _ w0 T V BD C), (value_now t v _ w1 T V BD C1); pose proof (pubs_grow t obs cb w0 j w1 M); lia);
            apply (follows_move v m o w0 j w1 B O SO SO1); [intros op p _ <-; exact LE|exact LE|exact F|exact M]) s (gstart v m progs) w); [|exact E].
    split; [split; [apply state_start; assumption|split; [apply only_start, ON|exact (run_counted t obs cb v m progs [] (gstart v m progs) T V ON eq_refl)]]|].
    split; [constructor|]. split; [constructor|]. cbn. lia.
  Qed.
End Writer.

(** ** one order of all updates and reads *)
Section History.
  Variable t : ity.
  Variable obs : list addr.
  Variable cb : addr -> bool.
  Hypothesis T : ity_ok t.
  Notation move := (move t obs cb).

  Lemma value_snoc v log j e : value_after t v (log ++ [(j, e)]) = match e with Updated op _ _ => conv t (math (value_after t v log) op) | _ => value_after t v log end.
  Proof. unfold value_after. rewrite fold_left_app. reflexivity. Qed.
  Lemma seen_snoc m log j e o : seen_after m (log ++ [(j, e)]) o = match e with Stored o' n => if Pos.eqb o' o then n else seen_after m log o | _ => seen_after m log o end.
  Proof. unfold seen_after. rewrite fold_left_app. reflexivity. Qed.

  Definition fits (v : Z) (m : addr -> Z) (log : list (nat * gev)) (e : gev) : Prop :=
    match e with
    | Updated op x p => x = value_after t v log /\ published t x op = Ok p
    | Got z => z = value_after t v log
    | GotSeen o z => z = seen_after m log o
    | _ => True
    end.
  Definition history (v : Z) (m : addr -> Z) (w : gworld) : Prop :=
    g_val w = value_after t v (g_log w) /\ (forall o, g_mirror w o = seen_after m (g_log w) o) /\
    forall l1 j e l2, g_log w = l1 ++ (j, e) :: l2 -> fits v m l1 e.
  Lemma snoc_split {A} (l : list A) x l1 y l2 : l ++ [x] = l1 ++ y :: l2 -> (l = l1 /\ x = y) \/ exists l2', l = l1 ++ y :: l2'.
  Proof.
    destruct (snoc_cases l2) as [->|(l2' & z & ->)]; intros E.
    - left. apply app_inj_tail in E. exact E.
    - right. exists l2'. change (l1 ++ y :: l2' ++ [z]) with (l1 ++ (y :: l2') ++ [z]) in E. rewrite app_assoc in E. apply app_inj_tail in E. exact (proj1 E).
  Qed.
  Lemma history_move v m w j w' : tidy w -> history v m w -> move w j w' -> history v m w'.
  Proof.
    intros TD (H1 & H2 & H3) M.
    assert (GO : forall val mi ths e, fits v m (g_log w) e -> val = value_after t v (g_log w ++ [(j, e)]) -> (forall o, mi o = seen_after m (g_log w ++ [(j, e)]) o) ->
      history v m (GW val mi ths (g_log w ++ [(j, e)]))).
    { intros val mi ths e F EV EM. split; [exact EV|]. split; [exact EM|]. cbn [g_log]. intros l1 k e' l2 E. apply snoc_split in E. destruct E as [[<- E]|[l2' E]].
      - injection E as <- <-. exact F.
      - exact (H3 l1 k e' l2' E). }
    destruct M as [l1 l2 todo e next EL LL|l1 l2 todo op p EL LL EP|l1 l2 todo EL LL|l1 l2 todo o EL LL]; apply GO; try rewrite value_snoc; try (intros o'; rewrite seen_snoc); try exact H1; try apply H2.
    - pose proof (tidy_mid w l1 l2 todo e next TD EL) as WE. destruct e; cbn in WE; try contradiction; exact Logic.I.
    - pose proof (tidy_mid w l1 l2 todo e next TD EL) as WE. destruct e; cbn in WE; try contradiction; exact H1.
    - destruct e; try apply H2. unfold set_mirror. rewrite Pos.eqb_sym. destruct (Pos.eqb _ _); [reflexivity|apply H2].
    - cbn. rewrite <- H1. auto.
    - rewrite <- H1. apply apply_math, T.
  Qed.
  Lemma run_history v m progs s w : grun t obs cb (gstart v m progs) s = Ok w -> history v m w.
  Proof.
    intros E. apply (grun_inv t obs cb (fun w => tidy w /\ history v m w) ltac:(intros w0 j w1 [TD H] M; split; [exact (tidy_move t obs cb w0 j w1 TD M)|exact (history_move v m w0 j w1 TD H M)]) s (gstart v m progs) w); [|exact E].
    split; [apply tidy_start|]. split; [reflexivity|]. split; [reflexivity|]. intros l1 j e l2 X. destruct l1; discriminate X.
  Qed.

  (** ** no other undefined step *)
  Lemma run_defined v m progs s : in_ity t v -> (forall prog op x, In prog progs -> In (GUpd op) prog -> in_ity t x -> ~ overflows t x op) ->
    exists w, grun t obs cb (gstart v m progs) s = Ok w.
  Proof.
    intros V NO.
    assert (GO : forall s w, in_ity t (g_val w) -> only (fun op => forall x, in_ity t x -> ~ overflows t x op) w -> exists w', grun t obs cb w s = Ok w').
    { clear s. induction s as [|j s IH]; intros w I O; [exists w; reflexivity|]. cbn [grun].
      destruct (gstep t obs cb w j) as [w1| |] eqn:G; cbn [bind].
      - destruct (gstep_move t obs cb w j w1 G) as [->|M]; [exact (IH w I O)|]. apply IH; [|exact (only_move t obs cb _ w j w1 O M)].
        destruct M as [l1 l2 todo e next EL LL|l1 l2 todo op p EL LL EP|l1 l2 todo EL LL|l1 l2 todo o EL LL]; cbn [g_val]; try exact I.
        rewrite apply_math by exact T. apply conv_range, T.
      - exfalso. unfold gstep in G. destruct (nth_error (g_threads w) j) as [[todo next]|] eqn:EN; [|discriminate G]. destruct todo as [|[op| |o] todo], next as [|e next]; try discriminate G.
        destruct (published t (g_val w) op) as [p| |] eqn:EP; cbn [bind] in G; try discriminate G.
        + apply nth_error_In in EN. apply (O _ op EN (or_introl eq_refl) (g_val w) I). apply (proj1 (proj1 (published_ub t (g_val w) op))), EP.
      - exfalso. unfold gstep in G. destruct (nth_error (g_threads w) j) as [[todo next]|] eqn:EN; [|discriminate G]. destruct todo as [|[op| |o] todo], next as [|e next]; try discriminate G.
        destruct (published t (g_val w) op) as [p| |] eqn:EP; cbn [bind] in G; try discriminate G.
        exact (proj2 (published_ub t (g_val w) op) EP). }
    apply GO; [exact V|]. apply only_start. intros p op I1 I2 x X. exact (NO p op x I1 I2 X).
  Qed.
End History.

(** ** witnesses: two threads, each ++x once *)
Section Two.
  Variable t : ity.
  Variable v : Z.
  Variable m : addr -> Z.
  Variable o : addr.
  Hypothesis T : ity_ok t.
  Hypothesis V : in_ity t v.
  Hypothesis R : v + 2 <= hi t.

  Lemma common_range x : in_ity t x -> i_signed (common t) = true -> in_ity (common t) x.
  Proof.
    intros X CS. unfold in_ity, lo, hi, common in *.
    destruct T as [B|[B|[B|B]]]; rewrite B in *; cbn in *; destruct (i_signed t) eqn:S; cbn in *; rewrite ?B, ?S in *; cbn in *; try discriminate; lia.
  Qed.
  Lemma inc_ok x : in_ity t x -> x + 1 <= hi t -> published t x PreInc = Ok (x + 1) /\ apply_atomic t x PreInc = x + 1.
  Proof.
    intros X Y. assert (X1 : in_ity t (x + 1)) by (unfold in_ity in *; lia).
    assert (A : apply_atomic t x PreInc = x + 1) by (rewrite apply_math by exact T; cbn [math]; apply conv_id; assumption).
    destruct (published t x PreInc) as [p| |] eqn:E.
    - split; [|exact A]. f_equal. rewrite (published_faithful t x PreInc p T eq_refl E). exact A.
    - exfalso. apply published_ub in E. destruct E as [CS N]. apply N, common_range; assumption.
    - exfalso. exact (proj2 (published_ub t x PreInc) E).
  Qed.
  Definition two : list (list gcmd) := [[GUpd PreInc]; [GUpd PreInc]].
  Definition first_two : gworld :=
    GW (v + 2) m [GT [] (rest_of_update [o] (fun _ => true) (v + 1)); GT [] (rest_of_update [o] (fun _ => true) (v + 2))]
       [(0%nat, Updated PreInc v (v + 1)); (1%nat, Updated PreInc (v + 1) (v + 2))].
  Lemma two_updated s : grun t [o] (fun _ => true) (gstart v m two) (0 :: 1 :: s)%nat = grun t [o] (fun _ => true) first_two s.
  Proof.
    destruct (inc_ok v V ltac:(lia)) as [P1 A1]. destruct (inc_ok (v + 1) ltac:(unfold in_ity in *; lia) ltac:(lia)) as [P2 A2].
    cbn [grun]. unfold gstart, two, gstep at 1. cbn [map nth_error g_threads g_val g_mirror g_log gput app]. rewrite P1, A1. cbn [bind].
    unfold gstep at 1. cbn [map nth_error g_threads g_val g_mirror g_log gput app]. rewrite P2, A2. cbn [bind]. unfold first_two. rewrite <- Z.add_assoc. reflexivity.
  Qed.
End Two.
