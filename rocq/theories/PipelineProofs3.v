(** Progress of a worker whose stage is still open. *)
From Verif Require Export PipelineProofs2.

Section Live.
  Variables B nq nw : nat.
  Hypothesis BP : (0 < B)%nat.
  Hypothesis NW : (nw <= nq)%nat.

  Definition pot (pc : wpc) : nat :=
    match pc with
    | WRead _ => 1 | WTake => 2 | WCheck => 3 | WInner => 4 | WCall => 5 | WOuter2 => 5 | WOuter => 6 | WDone => 0
    end.
  Definition far (j : nat) (q : queue) (pc : wpc) : nat :=
    (if length (q_done q) <? j then 5 * (j - length (q_done q)) + pot pc - 5 else 0)%nat.
  Definition far_of (j : nat) (w : pworld) (n : nat) : nat :=
    match nth_error (p_queues w) n, nth_error (p_workers w) n with
    | Some q, Some pc => far j q pc
    | _, _ => 0
    end%nat.

  Lemma settled_engaged w n q j : ginv B nq nw w -> settled w n j -> nth_error (p_queues w) n = Some q ->
    (j <= q_tail q)%nat /\ forall i, (i < j)%nat -> engaged (q_slots q) (i mod B).
  Proof.
    intros I [HL HH] E. unfold pushed in HL. rewrite E in HL.
    destruct (g_q _ _ _ _ I n q E) as [G1 G2 G3 G4 G5 G6]. split; [lia|].
    intros i Hi. destruct (G6 i ltac:(lia)) as [H|(k & p & v & E1 & E2)]; [exact H|].
    pose proof (HH k p i v E1 E2). lia.
  Qed.

  Lemma wstep_far w n q pc q' pc' j : ginv B nq nw w -> settled w n j ->
    nth_error (p_queues w) n = Some q -> nth_error (p_workers w) n = Some pc ->
    wstep B (p_closed w) q pc = Ok (q', pc') ->
    (far j q' pc' <= far j q pc - 1)%nat.
  Proof.
    intros I ST EQ EW ES. pose proof (g_w _ _ _ _ I n q pc EQ EW) as WG.
    destruct (settled_engaged w n q j I ST EQ) as [LT EN].
    destruct (g_q _ _ _ _ I n q EQ) as [G1 G2 G3 G4 G5 G6].
    unfold far. destruct pc as [| | | | |i| |]; cbn [wstep wgood] in *.
    - inversion ES; subst. destruct (Nat.ltb_spec (length (q_done q')) j); destruct (p_closed w); cbn [pot]; lia.
    - inversion ES; subst. destruct (Nat.ltb_spec (length (q_done q')) j); [|lia].
      destruct (Nat.eqb_spec (q_tail q') (q_head q')); cbn [pot]; lia.
    - inversion ES; subst. destruct (Nat.ltb_spec (length (q_done q')) j); [|lia].
      destruct (Nat.ltb_spec (q_head q') (q_tail q')); cbn [pot]; lia.
    - destruct (Nat.ltb_spec (length (q_done q)) j) as [L|L].
      + destruct (EN (q_head q) ltac:(lia)) as [v Hv]. rewrite Hv in ES. inversion ES; subst.
        destruct (Nat.ltb_spec (length (q_done q')) j); cbn [pot]; lia.
      + assert (E : q_done q' = q_done q).
        { destruct (nth_error (q_slots q) (q_head q mod B)) as [[v|]|]; inversion ES; subst; reflexivity. }
        rewrite E. destruct (Nat.ltb_spec (length (q_done q)) j); lia.
    - inversion ES; subst. cbn [q_done]. destruct (Nat.ltb_spec (length (q_done q)) j); cbn [pot]; lia.
    - destruct WG as (W1 & [v Hv] & W3). rewrite Hv in ES. inversion ES; subst. cbn [q_done].
      rewrite app_length. cbn [length].
      destruct (Nat.ltb_spec (length (q_done q) + 1) j), (Nat.ltb_spec (length (q_done q)) j); cbn [pot]; lia.
    - inversion ES; subst. destruct (Nat.ltb_spec (length (q_done q')) j); cbn [pot]; lia.
    - inversion ES; subst. destruct (Nat.ltb_spec (length (q_done q')) j); [lia|lia].
  Qed.

  Lemma pstep_settled w a w' n j : ginv B nq nw w -> settled w n j -> pstep B w a = Ok w' -> settled w' n j.
  Proof.
    intros I [HL HH] E. destruct a as [k m|m|]; cbn [pstep] in E.
    - destruct (nth_error (p_prods w) k) as [p|] eqn:EP; [|inversion E; subst; split; assumption].
      destruct (pr_pc p) as [|m' i v|m' i v] eqn:EC.
      + destruct (pr_items p) as [|v rest] eqn:EI; [inversion E; subst; split; assumption|].
        destruct (nth_error (p_queues w) m) as [q|] eqn:EQ; [|inversion E; subst; split; assumption].
        inversion E; subst w'; clear E.
        assert (LM : (m < length (p_queues w))%nat) by (eapply nth_lt; exact EQ).
        split.
        * unfold pushed in *. cbn [p_queues]. destruct (Nat.eq_dec m n) as [->|N].
          -- rewrite upd_same by exact LM. rewrite EQ in HL. cbn [take_ticket q_log]. rewrite app_length. lia.
          -- rewrite upd_other by exact N. exact HL.
        * cbn [p_prods]. intros k' p' i x E H. apply upd_get in E. destruct E as [(-> & -> & _)|(N & E)].
          -- cbn [pr_pc] in H. destruct H as [H|H]; [|discriminate]. inversion H; subst.
             unfold pushed in HL. rewrite EQ in HL. rewrite (qg_tail _ _ _ _ (g_q _ _ _ _ I n q EQ)). exact HL.
          -- exact (HH k' p' i x E H).
      + inversion E; subst w'; clear E. split; [exact HL|]. cbn [p_prods]. intros k' p' i' x E H.
        apply upd_get in E. destruct E as [(-> & -> & _)|(N & E)].
        * cbn [pr_pc] in H. destruct H as [H|H]; [discriminate|]. inversion H; subst.
          apply (HH k' p i' x EP). left. exact EC.
        * exact (HH k' p' i' x E H).
      + destruct (nth_error (p_queues w) m') as [q|] eqn:EQ; [|discriminate]. inversion E; subst w'; clear E.
        assert (LM : (m' < length (p_queues w))%nat) by (eapply nth_lt; exact EQ).
        split.
        * unfold pushed in *. cbn [p_queues]. destruct (Nat.eq_dec m' n) as [->|N].
          -- rewrite upd_same by exact LM. rewrite EQ in HL. exact HL.
          -- rewrite upd_other by exact N. exact HL.
        * cbn [p_prods]. intros k' p' i' x E H. apply upd_get in E. destruct E as [(-> & -> & _)|(N & E)].
          -- cbn [pr_pc] in H. destruct H; discriminate.
          -- exact (HH k' p' i' x E H).
    - destruct (nth_error (p_workers w) m) as [pc|] eqn:EW; [|inversion E; subst; split; assumption].
      destruct (nth_error (p_queues w) m) as [q|] eqn:EQ; [|discriminate].
      destruct (wstep_ok B nq nw BP NW w m q pc (g_q _ _ _ _ I m q EQ) (g_w _ _ _ _ I m q pc EQ EW))
        as (q' & pc' & ES & _ & _ & _ & E3 & _).
      rewrite ES in E. cbn [bind] in E. inversion E; subst w'; clear E.
      assert (LM : (m < length (p_queues w))%nat) by (eapply nth_lt; exact EQ).
      split; [|exact HH]. unfold pushed in *. cbn [p_queues]. destruct (Nat.eq_dec m n) as [->|N].
      + rewrite upd_same by exact LM. rewrite EQ in HL. rewrite E3. exact HL.
      + rewrite upd_other by exact N. exact HL.
    - inversion E; subst w'. split; assumption.
  Qed.

  Lemma pstep_far w a w' n j : ginv B nq nw w -> settled w n j -> pstep B w a = Ok w' ->
    (far_of j w' n <= far_of j w n - steps_of n [a])%nat.
  Proof.
    intros I ST E. destruct a as [k m|m|]; cbn [pstep] in E; unfold steps_of; cbn [filter].
    - cbn [length]. rewrite Nat.sub_0_r.
      destruct (nth_error (p_prods w) k) as [p|] eqn:EP; [|inversion E; subst; lia].
      destruct (pr_pc p) as [|m' i v|m' i v] eqn:EC.
      + destruct (pr_items p) as [|v rest] eqn:EI; [inversion E; subst; lia|].
        destruct (nth_error (p_queues w) m) as [q|] eqn:EQ; [|inversion E; subst; lia].
        inversion E; subst w'; clear E. unfold far_of. cbn [p_queues p_workers].
        destruct (Nat.eq_dec m n) as [->|N].
        * rewrite upd_same by (eapply nth_lt; exact EQ). rewrite EQ. destruct (nth_error (p_workers w) n); [|lia].
          unfold far. cbn [take_ticket q_done]. lia.
        * rewrite upd_other by exact N. lia.
      + inversion E; subst w'; clear E. unfold far_of. cbn [p_queues p_workers]. lia.
      + destruct (nth_error (p_queues w) m') as [q|] eqn:EQ; [|discriminate]. inversion E; subst w'; clear E.
        unfold far_of. cbn [p_queues p_workers]. destruct (Nat.eq_dec m' n) as [->|N].
        * rewrite upd_same by (eapply nth_lt; exact EQ). rewrite EQ. destruct (nth_error (p_workers w) n); [|lia].
          unfold far. cbn [store q_done]. lia.
        * rewrite upd_other by exact N. lia.
    - destruct (nth_error (p_workers w) m) as [pc|] eqn:EW.
      2:{ assert (w' = w) as -> by congruence. destruct (Nat.eqb_spec m n) as [->|N]; cbn [length]; [|lia].
          unfold far_of. rewrite EW. destruct (nth_error (p_queues w) n); lia. }
      destruct (nth_error (p_queues w) m) as [q|] eqn:EQ; [|discriminate].
      destruct (wstep B (p_closed w) q pc) as [[q' pc']| |] eqn:ES; cbn [bind] in E; try discriminate.
      inversion E; subst w'. unfold far_of. cbn [p_queues p_workers].
      destruct (Nat.eqb_spec m n) as [->|N]; cbn [length].
      + rewrite !upd_same by (eapply nth_lt; eassumption). rewrite EQ, EW.
        exact (wstep_far w n q pc q' pc' j I ST EQ EW ES).
      + rewrite !upd_other by exact N. lia.
    - inversion E; subst w'. unfold far_of. cbn [p_queues p_workers length]. lia.
  Qed.

  Lemma prun_far s : forall w w' n j, ginv B nq nw w -> settled w n j -> prun B w s = Ok w' ->
    (far_of j w' n <= far_of j w n - steps_of n s)%nat /\ ginv B nq nw w' /\ settled w' n j.
  Proof.
    induction s as [|a s IH]; intros w w' n j I ST E; cbn [prun] in E.
    - inversion E; subst. split; [cbn; lia|]. split; assumption.
    - destruct (pstep B w a) as [w1| |] eqn:E1; cbn [bind] in E; try discriminate.
      pose proof (pstep_far w a w1 n j I ST E1) as H1.
      destruct (IH w1 w' n j (pstep_inv B nq nw BP NW w a w1 I E1) (pstep_settled w a w1 n j I ST E1) E) as (H2 & H3).
      split; [|exact H3].
      assert (HS : steps_of n (a :: s) = (steps_of n [a] + steps_of n s)%nat).
      { change (a :: s) with ([a] ++ s). apply steps_of_app. }
      lia.
  Qed.

  Lemma far_zero w n j : ginv B nq nw w -> (n < nw)%nat -> settled w n j -> far_of j w n = 0%nat ->
    (j <= length (processed w n))%nat.
  Proof.
    intros I LN ST H. unfold far_of, processed in *.
    destruct (nth_error (p_queues w) n) as [q|] eqn:EQ.
    2:{ apply nth_error_None in EQ. rewrite (g_nq _ _ _ _ I) in EQ. lia. }
    destruct (nth_error (p_workers w) n) as [pc|] eqn:EW.
    2:{ apply nth_error_None in EW. rewrite (g_nw _ _ _ _ I) in EW. lia. }
    pose proof (g_w _ _ _ _ I n q pc EQ EW) as WG. unfold far in H.
    destruct (settled_engaged w n q j I ST EQ) as [LT EN].
    destruct (Nat.ltb_spec (length (q_done q)) j) as [L|L]; [|exact L].
    destruct pc; cbn [pot wgood] in *; lia.
  Qed.

  Lemma far_start w n j : (far_of j w n <= 5 * (j - length (processed w n)) + 1)%nat.
  Proof.
    unfold far_of, processed. destruct (nth_error (p_queues w) n) as [q|]; [|lia].
    destruct (nth_error (p_workers w) n) as [pc|]; [|lia]. unfold far.
    destruct (_ <? _)%nat; [|lia]. destruct pc; cbn [pot]; lia.
  Qed.

  Lemma progress w s w' n j : ginv B nq nw w -> (n < nw)%nat -> settled w n j -> prun B w s = Ok w' ->
    (5 * (j - length (processed w n)) + 1 <= steps_of n s)%nat -> (j <= length (processed w' n))%nat.
  Proof.
    intros I LN ST E L. destruct (prun_far s w w' n j I ST E) as (H & I' & ST').
    pose proof (far_start w n j). apply far_zero; [exact I'|exact LN|exact ST'|lia].
  Qed.

  (** What the worker has taken is in a filled slot. *)
  Definition hinv (w : pworld) : Prop :=
    forall n q i, nth_error (p_queues w) n = Some q -> (i < q_head q)%nat -> engaged (q_slots q) (i mod B).

  Lemma pstep_hinv w a w' : ginv B nq nw w -> hinv w -> pstep B w a = Ok w' -> hinv w'.
  Proof.
    intros I H E. destruct a as [k m|m|]; cbn [pstep] in E.
    - destruct (nth_error (p_prods w) k) as [p|] eqn:EP; [|inversion E; subst; exact H].
      destruct (pr_pc p) as [|m' i v|m' i v] eqn:EC.
      + destruct (pr_items p) as [|v rest] eqn:EI; [inversion E; subst; exact H|].
        destruct (nth_error (p_queues w) m) as [q|] eqn:EQ; [|inversion E; subst; exact H].
        inversion E; subst w'; clear E. intros n x i Ex Hi. cbn [p_queues] in Ex. apply upd_get in Ex.
        destruct Ex as [(-> & -> & _)|(_ & Ex)]; [exact (H n q i EQ Hi)|exact (H n x i Ex Hi)].
      + inversion E; subst w'. exact H.
      + destruct (nth_error (p_queues w) m') as [q|] eqn:EQ; [|discriminate].
        inversion E; subst w'; clear E. intros n x j Ex Hj. cbn [p_queues] in Ex. apply upd_get in Ex.
        destruct Ex as [(-> & -> & _)|(_ & Ex)]; [|exact (H n x j Ex Hj)].
        cbn [store q_slots q_head] in *. apply engaged_upd. exact (H n q j EQ Hj).
    - destruct (nth_error (p_workers w) m) as [pc|] eqn:EW; [|inversion E; subst; exact H].
      destruct (nth_error (p_queues w) m) as [q|] eqn:EQ; [|discriminate].
      destruct (wstep B (p_closed w) q pc) as [[q' pc']| |] eqn:ES; cbn [bind] in E; try discriminate.
      inversion E; subst w'; clear E. intros n x i Ex Hi. cbn [p_queues] in Ex. apply upd_get in Ex.
      destruct Ex as [(-> & -> & _)|(_ & Ex)]; [|exact (H n x i Ex Hi)].
      pose proof (g_w _ _ _ _ I n q pc EQ EW) as WG.
      destruct pc as [| | | | |i0| |]; cbn [wstep wgood] in *.
      + inversion ES; subst. exact (H n q' i EQ Hi).
      + inversion ES; subst. exact (H n q' i EQ Hi).
      + inversion ES; subst. exact (H n q' i EQ Hi).
      + destruct (nth_error (q_slots q) (q_head q mod B)) as [[v|]|]; inversion ES; subst; exact (H n q' i EQ Hi).
      + inversion ES; subst. cbn [q_slots q_head] in *. destruct WG as (_ & WG & _).
        destruct (Nat.eq_dec i (q_head q)) as [->|N]; [exact WG|]. apply (H n q i EQ). lia.
      + destruct (nth_error (q_slots q) (i0 mod B)) as [[v|]|]; inversion ES; subst. exact (H n q i EQ Hi).
      + inversion ES; subst. exact (H n q' i EQ Hi).
      + inversion ES; subst. exact (H n q' i EQ Hi).
    - inversion E; subst w'. exact H.
  Qed.

  Lemma prun_hinv s : forall w w', ginv B nq nw w -> hinv w -> prun B w s = Ok w' -> hinv w'.
  Proof.
    induction s as [|a s IH]; intros w w' I H E; cbn [prun] in E; [inversion E; subst; exact H|].
    destruct (pstep B w a) as [w1| |] eqn:E1; cbn [bind] in E; try discriminate.
    exact (IH w1 w' (pstep_inv B nq nw BP NW w a w1 I E1) (pstep_hinv w a w1 I H E1) E).
  Qed.

  Lemma hinv_start progs : hinv (pstart B nq nw progs).
  Proof.
    intros n q i E Hi. unfold pstart in E. cbn [p_queues] in E. apply nth_error_In, repeat_spec in E. subst q.
    cbn [fresh_queue q_head] in Hi. lia.
  Qed.

  (** An unfinished push keeps everything behind it back. *)
  Lemma blocked w n q k p i v : ginv B nq nw w -> binv B w -> hinv w -> (n < nw)%nat ->
    nth_error (p_queues w) n = Some q ->
    (length (q_log q) <= B)%nat -> nth_error (p_prods w) k = Some p -> holds p n i v ->
    (length (q_done q) <= i)%nat.
  Proof.
    intros I BI HI LN EQ LB EP HP.
    destruct (BI n q EQ LB) as [B1 B2 B3]. pose proof (B2 k p i v EP HP) as HN.
    destruct (g_p _ _ _ _ I k p n i v EP HP) as (q0 & EQ0 & EL). rewrite EQ in EQ0. inversion EQ0; subst q0.
    apply nth_lt in EL.
    destruct (Nat.le_gt_cases (q_head q) i) as [L|L].
    - destruct (nth_error (p_workers w) n) as [pc|] eqn:EW.
      + pose proof (g_w _ _ _ _ I n q pc EQ EW) as WG. destruct pc; cbn [wgood] in WG; lia.
      + apply nth_error_None in EW. rewrite (g_nw _ _ _ _ I) in EW. lia.
    - exfalso. destruct (HI n q i EQ L) as [x Hx]. rewrite Nat.mod_small in Hx by lia. congruence.
  Qed.
End Live.

Lemma pstep_log B w a w' n : pstep B w a = Ok w' -> exists l, pushed w' n = pushed w n ++ l.
Proof.
  intros E. destruct a as [k m|m|]; cbn [pstep] in E.
  - destruct (nth_error (p_prods w) k) as [p|] eqn:EP; [|inversion E; subst; exists []; rewrite app_nil_r; reflexivity].
    destruct (pr_pc p) as [|m' i v|m' i v] eqn:EC.
    + destruct (pr_items p) as [|v rest]; [inversion E; subst; exists []; rewrite app_nil_r; reflexivity|].
      destruct (nth_error (p_queues w) m) as [q|] eqn:EQ; [|inversion E; subst; exists []; rewrite app_nil_r; reflexivity].
      inversion E; subst w'; clear E. unfold pushed. cbn [p_queues].
      destruct (Nat.eq_dec m n) as [->|N].
      * rewrite upd_same by (eapply nth_lt; exact EQ). rewrite EQ. exists [(k, v)]. reflexivity.
      * rewrite upd_other by exact N. exists []. rewrite app_nil_r. reflexivity.
    + inversion E; subst w'. exists []. rewrite app_nil_r. reflexivity.
    + destruct (nth_error (p_queues w) m') as [q|] eqn:EQ; [|discriminate].
      inversion E; subst w'; clear E. unfold pushed. cbn [p_queues].
      destruct (Nat.eq_dec m' n) as [->|N].
      * rewrite upd_same by (eapply nth_lt; exact EQ). rewrite EQ. exists []. rewrite app_nil_r. reflexivity.
      * rewrite upd_other by exact N. exists []. rewrite app_nil_r. reflexivity.
  - destruct (nth_error (p_workers w) m) as [pc|] eqn:EW; [|inversion E; subst; exists []; rewrite app_nil_r; reflexivity].
    destruct (nth_error (p_queues w) m) as [q|] eqn:EQ; [|discriminate].
    destruct (wstep B (p_closed w) q pc) as [[q' pc']| |] eqn:ES; cbn [bind] in E; try discriminate.
    inversion E; subst w'; clear E. exists []. rewrite app_nil_r. unfold pushed. cbn [p_queues].
    destruct (Nat.eq_dec m n) as [->|N].
    + rewrite upd_same by (eapply nth_lt; exact EQ). rewrite EQ. exact (wstep_log _ _ _ _ _ _ ES).
    + rewrite upd_other by exact N. reflexivity.
  - inversion E; subst w'. exists []. rewrite app_nil_r. reflexivity.
Qed.

Lemma prun_log B n s : forall w w', prun B w s = Ok w' -> exists l, pushed w' n = pushed w n ++ l.
Proof.
  induction s as [|a s IH]; intros w w' E; cbn [prun] in E.
  - inversion E; subst. exists []. rewrite app_nil_r. reflexivity.
  - destruct (pstep B w a) as [w1| |] eqn:E1; cbn [bind] in E; try discriminate.
    destruct (pstep_log B w a w1 n E1) as [l1 H1]. destruct (IH w1 w' E) as [l2 H2].
    exists (l1 ++ l2). rewrite H2, H1, app_assoc. reflexivity.
Qed.

(** A producer that is not scheduled stays where it is. *)
Lemma prun_stalled B k s : forall w w', prun B w s = Ok w' -> (forall n, ~ In (P k n) s) ->
  nth_error (p_prods w') k = nth_error (p_prods w) k.
Proof.
  induction s as [|a s IH]; intros w w' E N; cbn [prun] in E; [inversion E; reflexivity|].
  destruct (pstep B w a) as [w1| |] eqn:E1; cbn [bind] in E; try discriminate.
  rewrite (IH w1 w' E (fun n H => N n (or_intror H))). destruct a as [k' m|m|]; cbn [pstep] in E1.
  - assert (NK : k' <> k) by (intros ->; exact (N m (or_introl eq_refl))).
    destruct (nth_error (p_prods w) k') as [p|]; [|congruence].
    destruct (pr_pc p).
    + destruct (pr_items p); [congruence|]. destruct (nth_error (p_queues w) m); [|congruence].
      inversion E1; subst. cbn [p_prods]. apply upd_other, NK.
    + inversion E1; subst. cbn [p_prods]. apply upd_other, NK.
    + destruct (nth_error (p_queues w) q); [|discriminate]. inversion E1; subst. cbn [p_prods]. apply upd_other, NK.
  - destruct (nth_error (p_workers w) m); [|congruence]. destruct (nth_error (p_queues w) m); [|discriminate].
    destruct (wstep _ _ _ _) as [[? ?]| |]; cbn [bind] in E1; try discriminate. inversion E1; reflexivity.
  - inversion E1; reflexivity.
Qed.

Lemma no_push_settled w n : no_push w -> settled w n (length (pushed w n)).
Proof.
  intros N. split; [lia|]. intros k p i v E H. rewrite (N p (nth_error_In _ _ E)) in H. destruct H; discriminate.
Qed.

Section Reach3.
  Variables B nq nw : nat.
  Variable progs : list (list Z).
  Hypothesis BP : (0 < B)%nat.
  Hypothesis NW : (nw <= nq)%nat.

  Lemma run_progress s w n j s' w' : prun B (pstart B nq nw progs) s = Ok w -> (n < nw)%nat ->
    settled w n j -> prun B w s' = Ok w' -> (length (pushed w' n) <= B)%nat ->
    (5 * (j - length (processed w n)) + 1 <= steps_of n s')%nat ->
    exists more, processed w' n = firstn j (map snd (pushed w n)) ++ more.
  Proof.
    intros R LN ST R' LB LS.
    destruct (reach_inv B nq nw progs BP NW s w R) as (I & _ & _ & _).
    pose proof (progress B nq nw BP NW w s' w' n j I LN ST R' LS) as LP.
    assert (R2 : prun B (pstart B nq nw progs) (s ++ s') = Ok w') by (rewrite prun_app, R; exact R').
    destruct (prun_log B n s' w w' R') as [l HL].
    unfold processed, pushed in *. destruct (nth_error (p_queues w') n) as [q'|] eqn:EQ'.
    - pose proof (bounded_prefix B nq nw progs BP NW (s ++ s') w' R2 n q' EQ' LB) as HB.
      assert (H : firstn j (q_done q') = firstn j (map snd (match nth_error (p_queues w) n with Some q => q_log q | None => [] end))).
      { transitivity (firstn j (map snd (q_log q'))).
        - rewrite HB, firstn_app. replace (j - length (q_done q'))%nat with 0%nat by lia.
          cbn [firstn]. rewrite app_nil_r. reflexivity.
        - rewrite HL, map_app, firstn_app. destruct ST as [ST _]. unfold pushed in ST.
          rewrite map_length. replace (j - _)%nat with 0%nat by lia. cbn [firstn]. rewrite app_nil_r. reflexivity. }
      exists (skipn j (q_done q')). rewrite <- H. symmetry. apply firstn_skipn.
    - cbn in LP. assert (j = 0)%nat as -> by lia. exists []. reflexivity.
  Qed.

  Lemma run_blocked s w n k p i v s' w' : prun B (pstart B nq nw progs) s = Ok w -> (n < nw)%nat ->
    nth_error (p_prods w) k = Some p -> (pr_pc p = PTicket n i v \/ pr_pc p = PStoring n i v) ->
    prun B w s' = Ok w' -> (forall m, ~ In (P k m) s') -> (length (pushed w' n) <= B)%nat ->
    (length (processed w' n) <= i)%nat.
  Proof.
    intros R LN EP HP R' N LB.
    assert (R2 : prun B (pstart B nq nw progs) (s ++ s') = Ok w') by (rewrite prun_app, R; exact R').
    destruct (reach_inv B nq nw progs BP NW (s ++ s') w' R2) as (I & _ & BI & _).
    pose proof (prun_hinv B nq nw BP NW (s ++ s') _ w' (ginv_start B nq nw BP NW progs) (hinv_start B nq nw BP NW progs) R2) as HI.
    rewrite <- (prun_stalled B k s' w w' R' N) in EP.
    unfold processed, pushed in *. destruct (nth_error (p_queues w') n) as [q|] eqn:EQ; [|cbn; lia].
    exact (blocked B nq nw BP NW w' n q k p i v I BI HI LN EQ LB EP HP).
  Qed.
End Reach3.

Lemma pushed_le_total B nq nw progs s w n : prun B (pstart B nq nw progs) s = Ok w -> (length (pushed w n) <= total progs)%nat.
Proof.
  intros R. pose proof (prun_pinv B progs s _ w (pinv_start B nq nw progs) R) as HP.
  unfold pushed. destruct (nth_error (p_queues w) n) as [q|] eqn:E; [|cbn; lia]. exact (log_le_total progs w n q HP E).
Qed.
