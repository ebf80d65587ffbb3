(** Accounting, termination and the concrete schedules of the pipeline properties. *)
From Verif Require Export PipelineProofs1.

(** ** accounting *)
Lemma concat_upd {A C} (f : A -> list C) l i y x : nth_error l i = Some y ->
  forall e, Permutation (f x) (f y ++ e) ->
  Permutation (concat (map f (upd_nth l i x))) (concat (map f l) ++ e).
Proof.
  intros H e HP. destruct (upd_split l i y x H) as (l1 & l2 & -> & _ & ->).
  rewrite !map_app. cbn [map]. rewrite !concat_app. cbn [concat]. rewrite HP.
  rewrite <- !app_assoc. apply Permutation_app_head. apply Permutation_app_head. apply Permutation_app_comm.
Qed.
Lemma concat_upd_same {A C} (f : A -> list C) l i y x : nth_error l i = Some y -> f x = f y ->
  concat (map f (upd_nth l i x)) = concat (map f l).
Proof.
  intros H E. destruct (upd_split l i y x H) as (l1 & l2 & -> & _ & ->).
  rewrite !map_app. cbn [map]. rewrite E. reflexivity.
Qed.

Definition pinv (progs : list (list Z)) (w : pworld) : Prop :=
  Permutation (all_pushed w ++ unpushed w) (concat progs).

Lemma wstep_log B c q pc q' pc' : wstep B c q pc = Ok (q', pc') -> q_log q' = q_log q.
Proof.
  destruct pc; cbn [wstep]; intros E; try (inversion E; reflexivity).
  - destruct (nth_error (q_slots q) _) as [[?|]|]; inversion E; reflexivity.
  - destruct (nth_error (q_slots q) _) as [[?|]|]; inversion E; reflexivity.
Qed.

Lemma pstep_pinv B progs w a w' : pinv progs w -> pstep B w a = Ok w' -> pinv progs w'.
Proof.
  unfold pinv, all_pushed, unpushed. intros H E. destruct a as [k n|n|]; cbn [pstep] in E.
  - destruct (nth_error (p_prods w) k) as [p|] eqn:EP; [|inversion E; subst; exact H].
    destruct (pr_pc p) as [|n' i v|n' i v] eqn:EC.
    + destruct (pr_items p) as [|v rest] eqn:EI; [inversion E; subst; exact H|].
      destruct (nth_error (p_queues w) n) as [q|] eqn:EQ; [|inversion E; subst; exact H].
      inversion E; subst w'. cbn [p_queues p_prods]. rewrite <- H.
      rewrite (concat_upd (fun q => map snd (q_log q)) _ _ _ _ EQ [v]).
      2:{ cbn [take_ticket q_log]. rewrite map_app. reflexivity. }
      destruct (upd_split (p_prods w) k p (Prod rest (PTicket n (q_tail q) v)) EP) as (l1 & l2 & E1 & _ & E2).
      rewrite E2, E1, !map_app. cbn [map pr_items]. rewrite !concat_app. cbn [concat]. rewrite EI.
      rewrite <- app_assoc. apply Permutation_app_head. cbn [app]. apply Permutation_middle.
    + inversion E; subst w'. cbn [p_queues p_prods].
      rewrite (concat_upd_same pr_items _ _ _ _ EP) by reflexivity. exact H.
    + destruct (nth_error (p_queues w) n') as [q|] eqn:EQ; [|discriminate].
      inversion E; subst w'. cbn [p_queues p_prods].
      rewrite (concat_upd_same pr_items _ _ _ _ EP) by reflexivity.
      rewrite (concat_upd_same (fun q => map snd (q_log q)) _ _ _ _ EQ) by reflexivity. exact H.
  - destruct (nth_error (p_workers w) n) as [pc|]; [|inversion E; subst; exact H].
    destruct (nth_error (p_queues w) n) as [q|] eqn:EQ; [|discriminate].
    destruct (wstep B (p_closed w) q pc) as [[q' pc']| |] eqn:ES; cbn [bind] in E; try discriminate.
    inversion E; subst w'. cbn [p_queues p_prods].
    rewrite (concat_upd_same (fun q => map snd (q_log q)) _ _ _ _ EQ); [exact H|].
    rewrite (wstep_log _ _ _ _ _ _ ES). reflexivity.
  - inversion E; subst w'. exact H.
Qed.

Lemma prun_pinv B progs s : forall w w', pinv progs w -> prun B w s = Ok w' -> pinv progs w'.
Proof.
  induction s as [|a s IH]; intros w w' H E; cbn [prun] in E; [inversion E; subst; exact H|].
  destruct (pstep B w a) as [w1| |] eqn:E1; cbn [bind] in E; try discriminate.
  eapply IH; [eapply pstep_pinv; eassumption|exact E].
Qed.

Lemma pinv_start B nq nw progs : pinv progs (pstart B nq nw progs).
Proof.
  unfold pinv, all_pushed, unpushed, pstart. cbn [p_queues p_prods].
  replace (concat (map (fun q => map snd (q_log q)) (repeat (fresh_queue B) nq))) with (@nil Z).
  2:{ induction nq; cbn; [reflexivity|assumption]. }
  rewrite map_map. cbn [pr_items app]. rewrite map_id. reflexivity.
Qed.

(** Per producer, one queue. *)
Definition oinv (progs : list (list Z)) (w : pworld) : Prop :=
  length (p_prods w) = length progs /\
  forall k p, nth_error (p_prods w) k = Some p ->
    by_producer k (pushed w 0) ++ pr_items p = nth k progs [].

Lemma by_producer_app k l1 l2 : by_producer k (l1 ++ l2) = by_producer k l1 ++ by_producer k l2.
Proof. unfold by_producer. rewrite filter_app, map_app. reflexivity. Qed.

Lemma pushed_upd (qs : list queue) n q q' ws ps c : nth_error qs n = Some q -> q_log q' = q_log q ->
  forall m, pushed (PW (upd_nth qs n q') ws ps c) m = pushed (PW qs ws ps c) m.
Proof.
  intros E EL m. unfold pushed. cbn [p_queues]. destruct (Nat.eq_dec n m) as [->|N].
  - rewrite upd_same by (eapply nth_lt; exact E). rewrite E. exact EL.
  - rewrite upd_other by exact N. reflexivity.
Qed.

Lemma pstep_oinv B progs w a w' : length (p_queues w) = 1%nat -> oinv progs w -> pstep B w a = Ok w' -> oinv progs w'.
Proof.
  intros L1 [HL H] E. destruct a as [k n|n|]; cbn [pstep] in E.
  - destruct (nth_error (p_prods w) k) as [p|] eqn:EP; [|inversion E; subst; split; assumption].
    assert (LK : (k < length (p_prods w))%nat) by (eapply nth_lt; exact EP).
    destruct (pr_pc p) as [|n' i v|n' i v] eqn:EC.
    + destruct (pr_items p) as [|v rest] eqn:EI; [inversion E; subst; split; assumption|].
      destruct (nth_error (p_queues w) n) as [q|] eqn:EQ; [|inversion E; subst; split; assumption].
      assert (n = 0)%nat by (apply nth_lt in EQ; lia). subst n.
      inversion E; subst w'. split; cbn [p_prods]; [rewrite upd_len; exact HL|].
      assert (PU : pushed (PW (upd_nth (p_queues w) 0 (take_ticket q k v)) (p_workers w)
                     (upd_nth (p_prods w) k (Prod rest (PTicket 0 (q_tail q) v))) (p_closed w)) 0
                   = pushed w 0 ++ [(k, v)]).
      { unfold pushed. cbn [p_queues]. rewrite upd_same by lia. rewrite EQ. reflexivity. }
      rewrite PU. intros k' p' E'. rewrite by_producer_app. apply upd_get in E'.
      destruct E' as [(-> & -> & _)|(N & E')].
      * unfold by_producer at 2. cbn [filter fst]. rewrite Nat.eqb_refl. cbn [map snd pr_items].
        rewrite <- (H k' p EP), EI, <- app_assoc. reflexivity.
      * unfold by_producer at 2. cbn [filter fst]. destruct (Nat.eqb_spec k k'); [congruence|].
        cbn [map]. rewrite app_nil_r. apply H, E'.
    + inversion E; subst w'. split; cbn [p_prods]; [rewrite upd_len; exact HL|].
      intros k' p' E'. apply upd_get in E'. destruct E' as [(-> & -> & _)|(N & E')].
      * apply (H k' p EP).
      * apply H, E'.
    + destruct (nth_error (p_queues w) n') as [q|] eqn:EQ; [|discriminate].
      inversion E; subst w'. split; cbn [p_prods]; [rewrite upd_len; exact HL|].
      intros k' p' E'. rewrite (pushed_upd _ _ q (store B q i v)) by (exact EQ || reflexivity).
      apply upd_get in E'. destruct E' as [(-> & -> & _)|(N & E')].
      * apply (H k' p EP).
      * apply H, E'.
  - destruct (nth_error (p_workers w) n) as [pc|]; [|inversion E; subst; split; assumption].
    destruct (nth_error (p_queues w) n) as [q|] eqn:EQ; [|discriminate].
    destruct (wstep B (p_closed w) q pc) as [[q' pc']| |] eqn:ES; cbn [bind] in E; try discriminate.
    inversion E; subst w'. split; [exact HL|]. intros k' p' E'. cbn [p_prods] in E'.
    rewrite (pushed_upd _ _ q q') by (exact EQ || exact (wstep_log _ _ _ _ _ _ ES)).
    apply (H k' p' E').
  - inversion E; subst w'. split; assumption.
Qed.

Lemma prun_oinv B progs s : forall w w', ginv B 1 1 w -> (0 < B)%nat -> oinv progs w -> prun B w s = Ok w' -> oinv progs w'.
Proof.
  induction s as [|a s IH]; intros w w' I BP H E; cbn [prun] in E; [inversion E; subst; exact H|].
  destruct (pstep B w a) as [w1| |] eqn:E1; cbn [bind] in E; try discriminate.
  eapply IH; [eapply (pstep_inv B 1 1 BP (le_n 1)); eassumption|exact BP| |exact E].
  eapply pstep_oinv; [exact (g_nq _ _ _ _ I)|exact H|exact E1].
Qed.

Lemma oinv_start B progs : oinv progs (stage_start B progs).
Proof.
  split; cbn [stage_start pstart p_prods]; [apply map_length|].
  intros k p E. cbn. rewrite nth_error_map in E. destruct (nth_error progs k) as [l|] eqn:EL; [|discriminate].
  inversion E; subst p. cbn [pr_items]. symmetry. apply nth_error_nth, EL.
Qed.

(** Lengths. *)
Lemma log_le_total progs w n q : pinv progs w -> nth_error (p_queues w) n = Some q ->
  (length (q_log q) <= total progs)%nat.
Proof.
  intros H E. unfold pinv in H. apply Permutation_length in H. unfold total. rewrite <- H, app_length.
  unfold all_pushed. apply nth_error_split in E. destruct E as (l1 & l2 & -> & _).
  rewrite map_app. cbn [map]. rewrite concat_app. cbn [concat]. rewrite !app_length, map_length. lia.
Qed.

(** ** termination after the destructor has set the flag *)
Section Term.
  Variables B nq nw : nat.
  Hypothesis BP : (0 < B)%nat.
  Hypothesis NW : (nw <= nq)%nat.

  Definition wrank (q : queue) (pc : wpc) : nat :=
    let d := backlog q in
    match pc with
    | WDone => 0
    | WOuter2 => if (d =? 0)%nat then 1 else 5 * d + 4
    | WOuter => if (d =? 0)%nat then 2 else 5 * d + 5
    | WInner => 5 * d + 3
    | WCheck => 5 * d + 2
    | WTake => 5 * d + 1
    | WRead _ => 5 * d + 5
    | WCall => 5 * d + 4
    end%nat.

  Lemma closed_engaged w n q : ginv B nq nw w -> p_closed w = true -> nth_error (p_queues w) n = Some q ->
    forall i, (i < q_tail q)%nat -> engaged (q_slots q) (i mod B).
  Proof.
    intros I C E i Hi. destruct (qg_filled _ _ _ _ (g_q _ _ _ _ I n q E) i Hi) as [H|(k & p & v & E1 & E2)]; [exact H|].
    exfalso. pose proof (g_closed _ _ _ _ I C p (nth_error_In _ _ E1)) as HI. apply idle_true in HI.
    destruct HI as [_ HI]. destruct E2; congruence.
  Qed.

  Lemma wstep_rank w n q pc q' pc' : ginv B nq nw w -> p_closed w = true ->
    nth_error (p_queues w) n = Some q -> nth_error (p_workers w) n = Some pc ->
    wstep B (p_closed w) q pc = Ok (q', pc') ->
    (wrank q' pc' < wrank q pc)%nat \/ (pc = WDone /\ pc' = WDone /\ q' = q).
  Proof.
    intros I C EQ EW ES. pose proof (g_w _ _ _ _ I n q pc EQ EW) as WG.
    pose proof (closed_engaged w n q I C EQ) as EN.
    destruct (g_q _ _ _ _ I n q EQ) as [G1 G2 G3 G4 G5 G6].
    rewrite C in ES. destruct pc as [| | | | |i| |]; cbn [wstep wgood] in *.
    - inversion ES; subst. left. cbn [wrank]. destruct (Nat.eqb_spec (backlog q') 0); lia.
    - inversion ES; subst. left. destruct (Nat.eqb_spec (q_tail q') (q_head q')); cbn [wrank]; unfold backlog;
        destruct (Nat.eqb_spec (q_tail q' - q_head q') 0); lia.
    - inversion ES; subst. left. destruct (Nat.ltb_spec (q_head q') (q_tail q')); cbn [wrank]; unfold backlog;
        destruct (Nat.eqb_spec (q_tail q' - q_head q') 0); lia.
    - destruct (EN (q_head q) ltac:(lia)) as [v Hv]. rewrite Hv in ES. inversion ES; subst. left. cbn [wrank]. lia.
    - inversion ES; subst. left. cbn [wrank]. unfold backlog. cbn [q_tail q_head]. lia.
    - destruct WG as (W1 & [v Hv] & W3). rewrite Hv in ES. inversion ES; subst. left. cbn [wrank]. unfold backlog.
      cbn [q_tail q_head]. lia.
    - inversion ES; subst. left. cbn [wrank]. lia.
    - inversion ES; subst. right. tauto.
  Qed.

  Definition wrank_of (w : pworld) (n : nat) : nat :=
    match nth_error (p_queues w) n, nth_error (p_workers w) n with
    | Some q, Some pc => wrank q pc
    | _, _ => 0
    end.

  Lemma rank_le w n : (wrank_of w n <= 5 * waiting w n + 5)%nat.
  Proof.
    unfold wrank_of, waiting. destruct (nth_error (p_queues w) n) as [q|]; [|lia].
    destruct (nth_error (p_workers w) n) as [pc|]; [|lia].
    destruct pc; cbn [wrank]; try destruct (_ =? _)%nat; lia.
  Qed.

  Lemma closed_prod_noop w k m w' : ginv B nq nw w -> p_closed w = true -> pstep B w (P k m) = Ok w' -> w' = w.
  Proof.
    intros I C E. cbn [pstep] in E. destruct (nth_error (p_prods w) k) as [p|] eqn:EP; [|congruence].
    pose proof (g_closed _ _ _ _ I C p (nth_error_In _ _ EP)) as H. apply idle_true in H. destruct H as [H1 H2].
    rewrite H1, H2 in E. congruence.
  Qed.

  Lemma closed_stays w a w' : p_closed w = true -> pstep B w a = Ok w' -> p_closed w' = true.
  Proof.
    intros C E. destruct a as [k n|n|]; cbn [pstep] in E.
    - destruct (nth_error (p_prods w) k) as [p|]; [|congruence]. destruct (pr_pc p).
      + destruct (pr_items p); [congruence|]. destruct (nth_error (p_queues w) n); [|congruence]. inversion E; subst. exact C.
      + inversion E; subst. exact C.
      + destruct (nth_error (p_queues w) q); [|discriminate]. inversion E; subst. exact C.
    - destruct (nth_error (p_workers w) n); [|congruence]. destruct (nth_error (p_queues w) n); [|discriminate].
      destruct (wstep _ _ _ _) as [[? ?]| |]; cbn [bind] in E; try discriminate. inversion E; subst. exact C.
    - inversion E; subst. cbn. rewrite C. reflexivity.
  Qed.

  Lemma pstep_rank w a w' n : ginv B nq nw w -> p_closed w = true -> pstep B w a = Ok w' ->
    (wrank_of w' n <= wrank_of w n - steps_of n [a])%nat.
  Proof.
    intros I C E. destruct a as [k m|m|].
    - rewrite (closed_prod_noop w k m w' I C E). cbn. lia.
    - cbn [pstep] in E. unfold steps_of. cbn [filter].
      destruct (nth_error (p_workers w) m) as [pc|] eqn:EW.
      2:{ assert (w' = w) as -> by congruence. destruct (Nat.eqb_spec m n) as [->|N]; cbn [length]; [|lia].
          unfold wrank_of. rewrite EW. destruct (nth_error (p_queues w) n); lia. }
      destruct (nth_error (p_queues w) m) as [q|] eqn:EQ; [|discriminate].
      destruct (wstep B (p_closed w) q pc) as [[q' pc']| |] eqn:ES; cbn [bind] in E; try discriminate.
      inversion E; subst w'. unfold wrank_of. cbn [p_queues p_workers].
      destruct (Nat.eqb_spec m n) as [->|N]; cbn [length].
      + rewrite !upd_same by (eapply nth_lt; eassumption). rewrite EQ, EW.
        destruct (wstep_rank w n q pc q' pc' I C EQ EW ES) as [H|(-> & -> & ->)]; [lia|]. cbn. lia.
      + rewrite !upd_other by exact N. lia.
    - cbn [pstep] in E. inversion E; subst w'. unfold wrank_of. cbn [p_queues p_workers].
      unfold steps_of. cbn [filter length]. lia.
  Qed.

  Lemma prun_rank s : forall w w' n, ginv B nq nw w -> p_closed w = true -> prun B w s = Ok w' ->
    (wrank_of w' n <= wrank_of w n - steps_of n s)%nat /\ ginv B nq nw w' /\ p_closed w' = true.
  Proof.
    induction s as [|a s IH]; intros w w' n I C E; cbn [prun] in E.
    - inversion E; subst. split; [cbn; lia|]. split; assumption.
    - destruct (pstep B w a) as [w1| |] eqn:E1; cbn [bind] in E; try discriminate.
      pose proof (pstep_rank w a w1 n I C E1) as H1.
      destruct (IH w1 w' n (pstep_inv B nq nw BP NW w a w1 I E1) (closed_stays w a w1 C E1) E) as (H2 & H3).
      split; [|exact H3].
      assert (HS : steps_of n (a :: s) = (steps_of n [a] + steps_of n s)%nat).
      { change (a :: s) with ([a] ++ s). unfold steps_of. rewrite filter_app, app_length. reflexivity. }
      lia.
  Qed.

  Lemma rank_zero w n pc : ginv B nq nw w -> nth_error (p_workers w) n = Some pc -> wrank_of w n = 0%nat -> pc = WDone.
  Proof.
    intros I EW H. unfold wrank_of in H. rewrite EW in H.
    destruct (nth_error (p_queues w) n) as [q|] eqn:EQ.
    - destruct pc; cbn [wrank] in H; try destruct (_ =? _)%nat; try lia; reflexivity.
    - exfalso. apply nth_error_None in EQ. apply nth_lt in EW. rewrite (g_nq _ _ _ _ I) in EQ. rewrite (g_nw _ _ _ _ I) in EW. lia.
  Qed.

  Lemma finishes w s w' n pc : ginv B nq nw w -> p_closed w = true -> prun B w s = Ok w' ->
    (5 * waiting w n + 5 <= steps_of n s)%nat -> nth_error (p_workers w') n = Some pc -> pc = WDone.
  Proof.
    intros I C E L EW. destruct (prun_rank s w w' n I C E) as (H & I' & _).
    pose proof (rank_le w n). eapply rank_zero; [exact I'|exact EW|]. lia.
  Qed.

  Lemma steps_of_app n s1 s2 : steps_of n (s1 ++ s2) = (steps_of n s1 + steps_of n s2)%nat.
  Proof. unfold steps_of. rewrite filter_app, app_length. reflexivity. Qed.
  Lemma steps_of_repeat n k : steps_of n (repeat (W n) k) = k.
  Proof. unfold steps_of. induction k; cbn; [reflexivity|]. rewrite Nat.eqb_refl. cbn. rewrite IHk. reflexivity. Qed.

  (** Some schedule of worker steps ends them all. *)
  Lemma all_finish w : ginv B nq nw w -> p_closed w = true ->
    exists s w', prun B w s = Ok w' /\ all_done w' /\ (forall a, In a s -> exists n, a = W n).
  Proof.
    intros I C.
    set (K := list_max (map (fun n => 5 * waiting w n + 5)%nat (seq 0 nw))).
    set (s := concat (map (fun n => repeat (W n) K) (seq 0 nw))).
    destruct (prun_ok B nq nw BP NW s w I) as (w' & E & I'). exists s, w'. split; [exact E|]. split.
    - intros pc Hin. apply In_nth_error in Hin. destruct Hin as [n EW].
      assert (LN : (n < nw)%nat) by (rewrite <- (g_nw _ _ _ _ I'); eapply nth_lt; exact EW).
      eapply (finishes w s w' n pc I C E); [|exact EW].
      assert (HK : (5 * waiting w n + 5 <= K)%nat).
      { unfold K. assert (HF := proj1 (list_max_le (map (fun n => 5 * waiting w n + 5)%nat (seq 0 nw)) _) (le_n _)).
        rewrite Forall_forall in HF. apply HF. apply in_map_iff. exists n. split; [reflexivity|]. apply in_seq. lia. }
      assert (HS : (K <= steps_of n s)%nat).
      { unfold s. assert (HN : In n (seq 0 nw)) by (apply in_seq; lia).
        apply in_split in HN. destruct HN as (l1 & l2 & ->). rewrite map_app. cbn [map]. rewrite concat_app. cbn [concat].
        rewrite !steps_of_app, steps_of_repeat. lia. }
      lia.
    - intros a Ha. unfold s in Ha. apply in_concat in Ha. destruct Ha as (l & Hl & Ha).
      apply in_map_iff in Hl. destruct Hl as (n & <- & _). exists n. eapply repeat_spec, Ha.
  Qed.
End Term.

Lemma prun_app B s1 : forall w s2, prun B w (s1 ++ s2) = (w' <- prun B w s1 ;; prun B w' s2).
Proof.
  induction s1 as [|a s1 IH]; intros w s2; cbn [prun app bind]; [reflexivity|].
  destruct (pstep B w a) as [w1| |]; cbn [bind]; [apply IH|reflexivity|reflexivity].
Qed.

(** ** one producer, one queue: exact runs *)
Section One.
  Variable B : nat.
  Hypothesis BP : (0 < B)%nat.

  Definition push1 (q : queue) (v : Z) : queue := store B (take_ticket q 0 v) (q_tail q) v.

  Fixpoint push_sched (n : nat) : list agent :=
    match n with O => [] | S m => P 0 0 :: P 0 0 :: P 0 0 :: push_sched m end.

  Lemma push_all l : forall q pc c rest,
    prun B (PW [q] [pc] [Prod (l ++ rest) PIdle] c) (push_sched (length l)) =
    Ok (PW [fold_left push1 l q] [pc] [Prod rest PIdle] c).
  Proof.
    induction l as [|v l IH]; intros q pc c rest; [reflexivity|].
    cbn [length push_sched app prun pstep nth_error p_prods p_queues pr_pc pr_items upd_nth p_workers p_closed bind fold_left].
    apply IH.
  Qed.

  Lemma nth_error_repeat_None (n i : nat) : (i < n)%nat -> nth_error (repeat (@None Z) n) i = Some None.
  Proof. revert i. induction n; intros [|i] L; cbn; try lia; [reflexivity|]. apply IHn. lia. Qed.

  Lemma pushed_state l : (length l <= B)%nat ->
    let q := fold_left push1 l (fresh_queue B) in
    length (q_slots q) = B /\ q_tail q = length l /\ q_head q = 0%nat /\ q_done q = [] /\
    q_log q = map (pair 0%nat) l /\
    forall i, (i < length l)%nat -> nth_error (q_slots q) i = Some (nth_error l i).
  Proof.
    induction l as [|v l IH] using rev_ind; intros L q.
    - cbn in q. subst q. cbn. rewrite repeat_length. repeat split; try reflexivity. lia.
    - rewrite app_length in L. cbn [length] in L. subst q. rewrite fold_left_app.
      destruct (IH ltac:(lia)) as (H1 & H2 & H3 & H4 & H5 & H6). clear IH.
      set (q0 := fold_left push1 l (fresh_queue B)) in *. cbn [fold_left push1].
      unfold push1, store, take_ticket. cbn [q_slots q_tail q_head q_done q_log].
      rewrite upd_len, app_length, map_app, H2, H5. cbn [length map].
      rewrite (Nat.mod_small (length l) B) by lia.
      split; [exact H1|]. split; [lia|]. split; [exact H3|]. split; [exact H4|]. split; [reflexivity|].
      intros i Hi. destruct (Nat.eq_dec (length l) i) as [<-|N].
      + rewrite upd_same by lia. rewrite nth_error_app2, Nat.sub_diag by lia. reflexivity.
      + rewrite upd_other by exact N. rewrite nth_error_app1 by lia. apply H6. lia.
  Qed.

  Lemma drain d : forall q ps c f, (q_head q + d = q_tail q)%nat ->
    (forall i, (q_head q <= i < q_tail q)%nat -> nth_error (q_slots q) (i mod B) = Some (Some (f i))) ->
    exists s, prun B (PW [q] [WInner] ps c) s =
      Ok (PW [Queue (q_slots q) (q_tail q) (q_tail q) (q_log q) (q_done q ++ map f (seq (q_head q) d))] [WInner] ps c).
  Proof.
    induction d as [|d IH]; intros q ps c f E H.
    - exists []. cbn. rewrite app_nil_r. replace (q_tail q) with (q_head q) at 2 by lia. destruct q. reflexivity.
    - set (q1 := Queue (q_slots q) (q_tail q) (S (q_head q)) (q_log q) (q_done q ++ [f (q_head q)])).
      destruct (IH q1 ps c f) as [s Hs]; [cbn; lia|intros i Hi; apply H; cbn in Hi; lia|].
      exists ([W 0; W 0; W 0; W 0; W 0] ++ s). rewrite prun_app.
      assert (E5 : prun B (PW [q] [WInner] ps c) [W 0; W 0; W 0; W 0; W 0] = Ok (PW [q1] [WInner] ps c)).
      { cbn [prun pstep nth_error p_queues p_workers p_closed p_prods upd_nth wstep bind].
        destruct (Nat.ltb_spec (q_head q) (q_tail q)); [|lia].
        cbn [prun pstep nth_error p_queues p_workers p_closed p_prods upd_nth wstep bind].
        rewrite (H (q_head q)) by lia.
        cbn [prun pstep nth_error p_queues p_workers p_closed p_prods upd_nth wstep bind q_slots q_tail q_head q_log q_done].
        rewrite (H (q_head q)) by lia. reflexivity. }
      rewrite E5. cbn [bind]. rewrite Hs. unfold q1. cbn [q_slots q_tail q_head q_log q_done seq map].
      rewrite <- app_assoc. reflexivity.
  Qed.

  Lemma end_worker q ps : q_head q = q_tail q ->
    prun B (PW [q] [WInner] ps true) [W 0; W 0; W 0] = Ok (PW [q] [WDone] ps true).
  Proof.
    intros E. cbn [prun pstep nth_error p_queues p_workers p_closed p_prods upd_nth wstep bind].
    rewrite E, Nat.ltb_irrefl. cbn [prun pstep nth_error p_queues p_workers p_closed p_prods upd_nth wstep bind].
    rewrite E, Nat.eqb_refl. reflexivity.
  Qed.
End One.

Lemma map_nth_seq (l : list Z) : forall a, map (fun i => nth (i - a) l 0) (seq a (length l)) = l.
Proof.
  induction l as [|x l IH]; intros a; [reflexivity|]. cbn [length seq map]. rewrite Nat.sub_diag. cbn [nth]. f_equal.
  rewrite <- (IH (S a)) at 2. apply map_ext_in. intros i Hi. apply in_seq in Hi.
  replace (i - a)%nat with (S (i - S a)) by lia. reflexivity.
Qed.

(** B+1 items pushed before the worker looks. *)
Lemma burst_run B v0 mid z : B = S (length mid) ->
  exists s w, prun B (stage_start B [v0 :: mid ++ [z]]) s = Ok w /\ all_done w /\
    map snd (pushed w 0) = v0 :: mid ++ [z] /\ processed w 0 = z :: mid ++ [z].
Proof.
  intros HB. assert (BP : (0 < B)%nat) by lia.
  set (l := v0 :: mid). assert (LL : length l = B) by (cbn; lia).
  set (q0 := fold_left (push1 B) l (fresh_queue B)).
  destruct (pushed_state B BP l ltac:(lia)) as (H1 & H2 & H3 & H4 & H5 & H6). fold q0 in H1, H2, H3, H4, H5, H6.
  set (q1 := push1 B q0 z).
  set (f := fun i : nat => if (i mod B =? 0)%nat then z else nth (i - 1) mid 0).
  assert (E1 : q_head q1 = 0%nat) by exact H3.
  assert (E2 : q_tail q1 = S B) by (change (S (q_tail q0) = S B); lia).
  assert (E3 : q_done q1 = []) by exact H4.
  assert (E4 : map snd (q_log q1) = l ++ [z]).
  { change (map snd (q_log q0 ++ [(0%nat, z)]) = l ++ [z]). rewrite H5, map_app, map_map. cbn [map snd]. rewrite map_id. reflexivity. }
  destruct (drain B BP (S B) q1 [Prod [] PIdle] true f) as [s Hs].
  - lia.
  - intros i Hi. unfold q1, push1, store, take_ticket. cbn [q_slots q_tail]. rewrite H2, LL, Nat.mod_same by lia.
    unfold f. destruct (Nat.eqb_spec (i mod B) 0) as [E|N].
    + rewrite E. apply upd_same. lia.
    + rewrite upd_other by lia. assert (LI : (i < B)%nat).
      { destruct (Nat.eq_dec i B) as [->|]; [rewrite Nat.mod_same in N by lia; congruence|lia]. }
      rewrite Nat.mod_small in * by lia. rewrite H6 by lia. unfold l. destruct i as [|i]; [congruence|].
      cbn [nth_error]. replace (S i - 1)%nat with i by lia. f_equal. apply nth_error_nth'. lia.
  - eexists. eexists. split.
    + rewrite (prun_app B (push_sched (length (l ++ [z]))) (stage_start B [v0 :: mid ++ [z]])
                 ([Close; W 0; W 0] ++ s ++ [W 0; W 0; W 0])).
      assert (EP : prun B (stage_start B [v0 :: mid ++ [z]]) (push_sched (length (l ++ [z]))) =
                   Ok (PW [q1] [WOuter] [Prod [] PIdle] false)).
      { pose proof (push_all B (l ++ [z]) (fresh_queue B) WOuter false []) as HP. rewrite app_nil_r in HP.
        rewrite fold_left_app in HP. exact HP. }
      rewrite EP. cbn [bind]. rewrite prun_app.
      cbn [prun pstep nth_error p_queues p_workers p_closed p_prods upd_nth wstep bind orb forallb idle pr_items pr_pc andb].
      destruct (Nat.eqb_spec (q_tail q1) (q_head q1)); [lia|].
      cbn [bind]. rewrite prun_app, Hs. cbn [bind]. apply end_worker. reflexivity.
    + split; [intros pc [<-|[]]; reflexivity|].
      split; [exact E4|]. unfold processed. cbn [p_queues nth_error q_done]. rewrite E1, E3. cbn [app].
      replace (S B) with (1 + (length mid + 1))%nat by lia. rewrite seq_app, map_app. cbn [seq map].
      assert (F0 : f 0%nat = z) by (unfold f; rewrite Nat.mod_0_l by lia; reflexivity).
      rewrite F0. cbn [app]. f_equal. rewrite seq_app, map_app. cbn [seq map]. f_equal.
      * rewrite <- (map_nth_seq mid 1) at 2. apply map_ext_in. intros i Hi. apply in_seq in Hi. unfold f.
        rewrite Nat.mod_small by lia. destruct (Nat.eqb_spec i 0); [lia|reflexivity].
      * f_equal. unfold f. replace (0 + 1 + length mid)%nat with B by lia. rewrite Nat.mod_same by lia. reflexivity.
Qed.

(** A worker that has kept up, and the next ticket taken but not stored. *)
Lemma stale_run B v0 mid z : B = S (length mid) ->
  exists s w, prun B (stage_start B [v0 :: mid ++ [z]]) s = Ok w /\ all_done w /\
    map snd (pushed w 0) = v0 :: mid ++ [z] /\ processed w 0 = v0 :: mid ++ [v0].
Proof.
  intros HB. assert (BP : (0 < B)%nat) by lia.
  set (l := v0 :: mid). assert (LL : length l = B) by (cbn; lia).
  set (q0 := fold_left (push1 B) l (fresh_queue B)).
  destruct (pushed_state B BP l ltac:(lia)) as (H1 & H2 & H3 & H4 & H5 & H6). fold q0 in H1, H2, H3, H4, H5, H6.
  destruct (drain B BP B q0 [Prod [z] PIdle] false (fun i => nth i l 0)) as [s1 Hs1]; [lia| |].
  { intros i Hi. rewrite Nat.mod_small by lia. rewrite H6 by lia. f_equal. apply nth_error_nth'. lia. }
  assert (ED : map (fun i => nth i l 0) (seq (q_head q0) B) = l).
  { rewrite H3, <- LL. rewrite <- (map_nth_seq l 0) at 2. apply map_ext. intros i. f_equal. lia. }
  rewrite ED, H4 in Hs1. cbn [app] in Hs1.
  set (q1 := Queue (q_slots q0) (q_tail q0) (q_tail q0) (q_log q0) l) in *.
  set (q2 := take_ticket q1 0 z).
  destruct (drain B BP 1 q2 [Prod [] (PTicket 0 (q_tail q0) z)] false (fun _ => v0)) as [s2 Hs2]; [change (q_tail q0 + 1 = S (q_tail q0))%nat; lia| |].
  { intros i Hi. change (q_tail q0 <= i < S (q_tail q0))%nat in Hi. assert (i = B) as -> by lia. cbn [q2 take_ticket q1 q_slots].
    rewrite Nat.mod_same by lia. rewrite H6 by lia. reflexivity. }
  eexists. eexists. split.
  - rewrite (prun_app B (push_sched (length l)) (stage_start B [v0 :: mid ++ [z]])
               ([W 0] ++ s1 ++ [P 0 0] ++ s2 ++ [P 0 0; P 0 0; Close] ++ [W 0; W 0; W 0])).
    change (stage_start B [v0 :: mid ++ [z]]) with (PW [fresh_queue B] [WOuter] [Prod (l ++ [z]) PIdle] false).
    rewrite push_all. fold q0. cbn [bind]. rewrite prun_app.
    cbn [prun pstep nth_error p_queues p_workers p_closed p_prods upd_nth wstep bind].
    rewrite prun_app, Hs1. cbn [bind]. rewrite prun_app.
    cbn [prun pstep nth_error p_queues p_workers p_closed p_prods upd_nth wstep bind pr_items pr_pc].
    change (q_tail q1) with (q_tail q0). fold q2. rewrite prun_app, Hs2. cbn [bind].
    rewrite prun_app.
    cbn [prun pstep nth_error p_queues p_workers p_closed p_prods upd_nth wstep bind pr_items pr_pc orb forallb idle andb].
    apply end_worker. reflexivity.
  - split; [intros pc [<-|[]]; reflexivity|]. split.
    + change (map snd (q_log q0 ++ [(0%nat, z)]) = l ++ [z]). rewrite H5, map_app, map_map. cbn [map snd]. rewrite map_id. reflexivity.
    + reflexivity.
Qed.

(** ** min_thread *)
Lemma min_from_spec l : forall i mn mi,
  (min_from l i mn mi = mi /\ forall j x, nth_error l j = Some x -> mn <= x) \/
  exists j x, min_from l i mn mi = (i + j)%nat /\ nth_error l j = Some x /\ x < mn /\
    (forall j' x', nth_error l j' = Some x' -> x <= x') /\
    (forall j' x', (j' < j)%nat -> nth_error l j' = Some x' -> x < x').
Proof.
  induction l as [|a l IH]; intros i mn mi; cbn [min_from].
  - left. split; [reflexivity|]. intros [|j] x; discriminate.
  - destruct (Z.ltb_spec a mn) as [L|L].
    + right. destruct (IH (S i) a i) as [(E & H)|(j & x & E & Ej & Lx & H1 & H2)].
      * exists 0%nat, a. rewrite E. split; [lia|]. split; [reflexivity|]. split; [exact L|]. split.
        -- intros [|j'] x' E'; cbn in E'; [inversion E'; lia|]. eapply H, E'.
        -- intros; lia.
      * exists (S j), x. rewrite E. split; [lia|]. split; [exact Ej|]. split; [lia|]. split.
        -- intros [|j'] x' E'; cbn in E'; [inversion E'; lia|]. eapply H1, E'.
        -- intros [|j'] x' Lj E'; cbn in E'; [inversion E'; lia|]. eapply H2; [|exact E']. lia.
    + destruct (IH (S i) mn mi) as [(E & H)|(j & x & E & Ej & Lx & H1 & H2)].
      * left. split; [exact E|]. intros [|j'] x' E'; cbn in E'; [inversion E'; lia|]. eapply H, E'.
      * right. exists (S j), x. rewrite E. split; [lia|]. split; [exact Ej|]. split; [exact Lx|]. split.
        -- intros [|j'] x' E'; cbn in E'; [inversion E'; lia|]. eapply H1, E'.
        -- intros [|j'] x' Lj E'; cbn in E'; [inversion E'; lia|]. eapply H2; [|exact E']. lia.
Qed.

(** ** statistics *)
Definition run_stat (ms : list (Z * Z)) : list (Z * Z) := fold_left stat_push ms [].
Lemma removelast_firstn_len {A} (l : list A) n : length l = S n -> removelast l = firstn n l.
Proof.
  revert n. induction l as [|x l IH]; intros n H; [discriminate|]. destruct n as [|n].
  - destruct l; [reflexivity|discriminate].
  - cbn [length] in H. destruct l as [|y l]; [discriminate|]. cbn [firstn]. cbn [firstn] in IH.
    change (removelast (x :: y :: l)) with (x :: removelast (y :: l)). f_equal. rewrite (IH n) by lia. reflexivity.
Qed.
Lemma run_stat_window ms : run_stat ms = firstn 10 (rev ms).
Proof.
  unfold run_stat. induction ms as [|m ms IH] using rev_ind; [reflexivity|].
  rewrite fold_left_app, IH, rev_app_distr. cbn [fold_left rev app]. unfold stat_push, measure_points.
  change (firstn 10 (m :: rev ms)) with (m :: firstn 9 (rev ms)).
  destruct (Nat.le_gt_cases 10 (length (rev ms))) as [L|L].
  - assert (E : length (firstn 10 (rev ms)) = 10%nat) by (rewrite firstn_length; lia).
    destruct (Z.gtb_spec (Z.of_nat (length (m :: firstn 10 (rev ms)))) 10) as [_|G]; [|cbn [length] in G; lia].
    rewrite (removelast_firstn_len _ 10) by (cbn [length]; lia). cbn [firstn].
    f_equal. change (firstn 9 (firstn 10 (rev ms)) = firstn 9 (rev ms)). rewrite firstn_firstn. reflexivity.
  - rewrite (firstn_all2 (n := 10)) by lia.
    destruct (Z.gtb_spec (Z.of_nat (length (m :: rev ms))) 10) as [G|_]; [cbn [length] in G; lia|].
    rewrite (firstn_all2 (n := 9)) by lia. reflexivity.
Qed.
Lemma int_sum_ok l : forall acc b, 0 <= b -> (forall x, In x l -> - b <= x <= b) ->
  - 2 ^ 31 <= acc - b * Z.of_nat (length l) -> acc + b * Z.of_nat (length l) < 2 ^ 31 ->
  int_sum acc l = Ok (acc + zsum l).
Proof.
  induction l as [|x l IH]; intros acc b Hb H L1 L2; cbn [int_sum zsum].
  - f_equal. lia.
  - assert (Hx : - b <= x <= b) by (apply H; left; reflexivity).
    cbn [length] in L1, L2. rewrite Nat2Z.inj_succ in L1, L2.
    assert (0 <= b * Z.of_nat (length l)) by (apply Z.mul_nonneg_nonneg; lia).
    destruct (Z.leb_spec (- 2 ^ 31) (acc + x)); [|lia]. destruct (Z.ltb_spec (acc + x) (2 ^ 31)); [|lia]. cbn [andb].
    rewrite (IH (acc + x) b); [f_equal; lia|exact Hb|intros y Hy; apply H; right; exact Hy|lia|lia].
Qed.

Lemma int_sum_exact l : forall acc,
  (int_sum acc l = Ok (acc + zsum l) /\ forall k, (0 < k)%nat -> (k <= length l)%nat -> - 2 ^ 31 <= acc + zsum (firstn k l) < 2 ^ 31) \/
  (int_sum acc l = UB /\ exists k, ~ (- 2 ^ 31 <= acc + zsum (firstn k l) < 2 ^ 31) /\ (0 < k)%nat).
Proof.
  induction l as [|x l IH]; intros acc; cbn [int_sum].
  - left. split; [cbn [zsum]; f_equal; lia|]. intros k K L. cbn [length] in L. lia.
  - destruct (Z.leb_spec (- 2 ^ 31) (acc + x)) as [G|G].
    2:{ right. split; [reflexivity|]. exists 1%nat. cbn [firstn zsum]. lia. }
    destruct (Z.ltb_spec (acc + x) (2 ^ 31)) as [H|H].
    2:{ right. split; [reflexivity|]. exists 1%nat. cbn [firstn zsum]. lia. }
    cbn [andb]. destruct (IH (acc + x)) as [(E & B)|(E & k & B & K)].
    + left. split; [rewrite E; cbn [zsum]; f_equal; lia|]. intros [|k] K L; [lia|]. cbn [firstn zsum].
      destruct k as [|k]; [cbn [firstn zsum]; lia|]. cbn [length] in L. specialize (B (S k)).
      rewrite Z.add_assoc. apply B; lia.
    + right. split; [exact E|]. exists (S k). cbn [firstn zsum]. rewrite Z.add_assoc. split; [exact B|lia].
Qed.

(** ** a pool with fewer workers than queues *)
Section Pool.
  Variable B : nat.
  Hypothesis BP : (0 < B)%nat.

  Definition one (v : Z) : queue := push1 B (fresh_queue B) v.
  Lemma pool_min : forall j (l : list Z), (j < 8)%nat -> length l = j ->
    min_thread (map (fun q => Z.of_nat (backlog q)) (map one l ++ repeat (fresh_queue B) (8 - j))) = j.
  Proof.
    intros j l Hj Hl. rewrite map_app, map_map.
    replace (map (fun q => Z.of_nat (backlog q)) (repeat (fresh_queue B) (8 - j))) with (repeat 0 (8 - j)).
    2:{ generalize (8 - j)%nat as m. induction m; cbn; [reflexivity|]. f_equal. exact IHm. }
    replace (map (fun x => Z.of_nat (backlog (one x))) l) with (repeat 1 j).
    2:{ subst j. clear Hj. induction l as [|x l IH]; [reflexivity|]. cbn [length repeat map]. f_equal. exact IH. }
    do 8 (destruct j as [|j]; [reflexivity|]). lia.
  Qed.

  Fixpoint pool_sched (j n : nat) : list agent :=
    match n with O => [] | S m => P 0 j :: P 0 j :: P 0 j :: pool_sched (S j) m end.

  Lemma upd_mid {A} (l1 l2 : list A) y x : upd_nth (l1 ++ y :: l2) (length l1) x = l1 ++ x :: l2.
  Proof. induction l1 as [|z l1 IH]; cbn; [reflexivity|]. rewrite IH. reflexivity. Qed.
  Lemma nth_mid {A} (l1 l2 : list A) y : nth_error (l1 ++ y :: l2) (length l1) = Some y.
  Proof. induction l1 as [|z l1 IH]; cbn; [reflexivity|exact IH]. Qed.

  Lemma upd_midj {A} (l1 l2 : list A) y x j : j = length l1 -> upd_nth (l1 ++ y :: l2) j x = l1 ++ x :: l2.
  Proof. intros ->. apply upd_mid. Qed.
  Lemma nth_midj {A} (l1 l2 : list A) y j : j = length l1 -> nth_error (l1 ++ y :: l2) j = Some y.
  Proof. intros ->. apply nth_mid. Qed.

  Lemma pool_pushes ws : forall (todo done : list Z), (length done + length todo <= 8)%nat ->
    let w := PW (map one done ++ repeat (fresh_queue B) (8 - length done)) ws [Prod todo PIdle] false in
    let s := pool_sched (length done) (length todo) in
    min_followed B w s /\
    prun B w s = Ok (PW (map one (done ++ todo) ++ repeat (fresh_queue B) (8 - length (done ++ todo))) ws [Prod [] PIdle] false).
  Proof.
    induction todo as [|v todo IH]; intros done L w s.
    - cbn in s. subst s w. rewrite app_nil_r. split; [exact Logic.I|reflexivity].
    - cbn [length] in L. specialize (IH (done ++ [v])). rewrite app_length in IH. cbn [length] in IH.
      specialize (IH ltac:(lia)). cbn zeta in IH. destruct IH as [IM IR].
      cbn [length pool_sched] in s.
      assert (E1 : pstep B w (P 0 (length done)) =
        Ok (PW (map one done ++ take_ticket (fresh_queue B) 0 v :: repeat (fresh_queue B) (8 - length done - 1)) ws
               [Prod todo (PTicket (length done) 0 v)] false)).
      { subst w. cbn [pstep p_prods nth_error pr_pc pr_items p_queues].
        replace (8 - length done)%nat with (S (8 - length done - 1)) by lia. cbn [repeat].
        replace (S (8 - length done - 1) - 1)%nat with (8 - length done - 1)%nat by lia.
        rewrite nth_midj by (rewrite map_length; reflexivity).
        rewrite upd_midj by (rewrite map_length; reflexivity). reflexivity. }
      assert (E2 : pstep B (PW (map one done ++ take_ticket (fresh_queue B) 0 v :: repeat (fresh_queue B) (8 - length done - 1)) ws
                       [Prod todo (PTicket (length done) 0 v)] false) (P 0 (length done)) =
                   Ok (PW (map one done ++ take_ticket (fresh_queue B) 0 v :: repeat (fresh_queue B) (8 - length done - 1)) ws
                       [Prod todo (PStoring (length done) 0 v)] false)) by reflexivity.
      assert (E3 : pstep B (PW (map one done ++ take_ticket (fresh_queue B) 0 v :: repeat (fresh_queue B) (8 - length done - 1)) ws
                       [Prod todo (PStoring (length done) 0 v)] false) (P 0 (length done)) =
                   Ok (PW (map one (done ++ [v]) ++ repeat (fresh_queue B) (8 - (length done + 1))) ws
                       [Prod todo PIdle] false)).
      { cbn [pstep p_prods nth_error pr_pc pr_items p_queues].
        rewrite nth_midj by (rewrite map_length; reflexivity).
        rewrite upd_midj by (rewrite map_length; reflexivity).
        rewrite map_app. cbn [map]. rewrite <- app_assoc. cbn [app].
        replace (8 - (length done + 1))%nat with (8 - length done - 1)%nat by lia. reflexivity. }
      replace (length done + 1)%nat with (S (length done)) in * by lia.
      set (X1 := PW _ ws [Prod todo (PTicket (length done) 0 v)] false) in E1, E2.
      set (X2 := PW _ ws [Prod todo (PStoring (length done) 0 v)] false) in E2, E3.
      set (X3 := PW _ ws [Prod todo PIdle] false) in E3, IM, IR.
      assert (N1 : forall p, nth_error (p_prods X1) 0 = Some p -> pr_pc p <> PIdle).
      { intros p Ep. cbn in Ep. inversion Ep; subst p. discriminate. }
      assert (N2 : forall p, nth_error (p_prods X2) 0 = Some p -> pr_pc p <> PIdle).
      { intros p Ep. cbn in Ep. inversion Ep; subst p. discriminate. }
      clearbody X1 X2 X3.
      subst s. split.
      + cbn [min_followed]. split.
        * intros p Ep Epc. subst w. cbn [p_queues]. symmetry. apply pool_min; [lia|reflexivity].
        * intros w1 F1. assert (w1 = X1) as -> by congruence.
          split; [intros p Ep Epc; exfalso; exact (N1 p Ep Epc)|].
          intros w2 F2. assert (w2 = X2) as -> by congruence.
          split; [intros p Ep Epc; exfalso; exact (N2 p Ep Epc)|].
          intros w3 F3. assert (w3 = X3) as -> by congruence. exact IM.
      + cbn [prun]. rewrite E1. cbn [bind]. rewrite E2. cbn [bind]. rewrite E3. cbn [bind].
        rewrite IR. rewrite <- !app_assoc. cbn [app]. reflexivity.
  Qed.

  Lemma min_followed_app s1 : forall w s2, min_followed B w s1 ->
    (forall w', prun B w s1 = Ok w' -> min_followed B w' s2) -> min_followed B w (s1 ++ s2).
  Proof.
    induction s1 as [|a s1 IH]; intros w s2 H1 H2; cbn [app].
    - apply H2. reflexivity.
    - cbn [min_followed] in *. destruct H1 as [H1 H3]. split; [exact H1|]. intros w' E. apply IH; [apply H3, E|].
      intros w2 E2. apply H2. cbn [prun]. rewrite E. exact E2.
  Qed.
  Lemma min_followed_workers s : (forall a, In a s -> a = Close \/ exists n, a = W n) -> forall w, min_followed B w s.
  Proof.
    induction s as [|a s IH]; intros H w; cbn [min_followed]; [exact Logic.I|]. split.
    - destruct (H a (or_introl eq_refl)) as [->|[n ->]]; exact Logic.I.
    - intros w' _. apply IH. intros b Hb. apply H. right. exact Hb.
  Qed.

  Lemma pool_lost p items : (p < 8)%nat -> length items = S p ->
    exists s w, prun B (pool_start B p [items]) s = Ok w /\ min_followed B (pool_start B p [items]) s /\ all_done w /\
      all_pushed w = items /\ exists v, map snd (pushed w p) = [v] /\ processed w p = [].
  Proof.
    intros Lp LI. assert (NW : (p <= 8)%nat) by lia.
    destruct (pool_pushes (repeat WOuter p) items []) as [M1 R1]; [cbn; lia|]. cbn [length map app] in M1, R1.
    change (PW (repeat (fresh_queue B) (8 - 0)) (repeat WOuter p) [Prod items PIdle] false) with (pool_start B p [items]) in M1, R1.
    set (w1 := PW (map one items ++ repeat (fresh_queue B) (8 - length items)) (repeat WOuter p) [Prod [] PIdle] false) in *.
    set (w2 := PW (p_queues w1) (p_workers w1) (p_prods w1) true).
    assert (I1 : ginv B 8 p w1) by exact (prun_start_inv B 8 p BP NW [items] _ w1 R1).
    assert (R2 : pstep B w1 Close = Ok w2) by reflexivity.
    assert (I2 : ginv B 8 p w2) by exact (pstep_inv B 8 p BP NW w1 Close w2 I1 R2).
    destruct (all_finish B 8 p BP NW w2 I2 eq_refl) as (s & w & R & D & HS).
    exists (pool_sched 0 (length items) ++ Close :: s), w.
    assert (RR : prun B (pool_start B p [items]) (pool_sched 0 (length items) ++ Close :: s) = Ok w).
    { rewrite prun_app, R1. cbn [bind prun]. rewrite R2. exact R. }
    split; [exact RR|]. split.
    { apply min_followed_app; [exact M1|]. intros w' _. apply min_followed_workers.
      intros a [<-|Ha]; [left; reflexivity|right; apply HS, Ha]. }
    split; [exact D|].
    assert (LOG : forall n, pushed w n = pushed w2 n /\ length (p_queues w) = length (p_queues w2)).
    { clear -R HS. assert (HS' : forall a, In a s -> exists n, a = W n) by exact HS. clear HS. clearbody w2. revert w2 R HS'.
      induction s as [|a s IH]; intros w2 R HS n; cbn [prun] in R; [inversion R; tauto|].
      destruct (HS a (or_introl eq_refl)) as [m ->].
      destruct (pstep B w2 (W m)) as [w3| |] eqn:E; cbn [bind] in R; try discriminate.
      destruct (IH w3 R (fun b Hb => HS b (or_intror Hb)) n) as [H1 H2]. rewrite H1, H2.
      cbn [pstep] in E. destruct (nth_error (p_workers w2) m); [|inversion E; subst; tauto].
      destruct (nth_error (p_queues w2) m) as [q|] eqn:EQ; [|discriminate].
      destruct (wstep B (p_closed w2) q w0) as [[q' pc']| |] eqn:ES; cbn [bind] in E; try discriminate.
      inversion E; subst w3. cbn [p_queues]. rewrite upd_len. split; [|reflexivity].
      rewrite (pushed_upd _ _ q q') by (exact EQ || exact (wstep_log _ _ _ _ _ _ ES)). reflexivity. }
    assert (AP : all_pushed w = items).
    { assert (AP2 : all_pushed w = concat (map (fun n => map snd (pushed w n)) (seq 0 (length (p_queues w))))).
      { unfold all_pushed, pushed. generalize (p_queues w) as l. clear. intros l. f_equal.
        assert (G : forall (l : list queue) a pre, a = length pre -> map (fun q => map snd (q_log q)) l =
           map (fun n => map snd match nth_error (pre ++ l) n with Some q => q_log q | None => [] end) (seq a (length l))).
        { clear. induction l as [|x l IH]; intros a pre ->; [reflexivity|]. cbn [map length seq]. rewrite nth_mid. f_equal.
          specialize (IH (S (length pre)) (pre ++ [x])). rewrite app_length in IH. cbn [length] in IH. rewrite IH by lia.
          rewrite <- app_assoc. reflexivity. }
        apply (G l 0%nat []). reflexivity. }
      rewrite AP2, (proj2 (LOG 0%nat)).
      rewrite (map_ext _ (fun n => map snd (pushed w2 n))) by (intros n; rewrite (proj1 (LOG n)); reflexivity).
      subst w2 w1. cbn [p_queues]. clear -LI. 
      rewrite app_length, map_length, repeat_length, seq_app, map_app, concat_app.
      replace (concat (map _ (seq (0 + length items) _))) with (@nil Z).
      2:{ symmetry. apply concat_nil_Forall. apply Forall_forall. intros x Hx. apply in_map_iff in Hx.
          destruct Hx as (n & <- & Hn). apply in_seq in Hn. unfold pushed. cbn [p_queues].
          rewrite nth_error_app2 by (rewrite map_length; lia).
          destruct (nth_error (repeat (fresh_queue B) (8 - length items)) (n - length (map one items))) as [q|] eqn:E; [|reflexivity].
          apply nth_error_In, repeat_spec in E. subst q. reflexivity. }
      rewrite app_nil_r.
      rewrite (map_ext_in _ (fun n => [nth n items 0])).
      2:{ intros n Hn. apply in_seq in Hn. unfold pushed. cbn [p_queues].
          rewrite nth_error_app1 by (rewrite map_length; lia). rewrite nth_error_map.
          rewrite (nth_error_nth' items 0) by lia. reflexivity. }
      clear. assert (G : forall (l : list nat) (f : nat -> Z), concat (map (fun n => [f n]) l) = map f l).
      { induction l as [|x l IH]; intros f; [reflexivity|]. cbn. rewrite IH. reflexivity. }
      rewrite (G _ (fun n => nth n items 0)). transitivity (map (fun i => nth (i - 0) items 0) (seq 0 (length items))); [|apply map_nth_seq].
      apply map_ext. intros n. f_equal. lia. }
    split; [exact AP|].
    exists (nth p items 0). split.
    - rewrite (proj1 (LOG p)). subst w2 w1. unfold pushed. cbn [p_queues].
      rewrite nth_error_app1 by (rewrite map_length; lia). rewrite nth_error_map.
      rewrite (nth_error_nth' items 0) by lia. reflexivity.
    - destruct (prun_binv B 8 p BP NW _ _ w (ginv_start B 8 p BP NW [items]) (untouched_start B 8 p [items]) (binv_start B 8 p [items]) RR)
        as (_ & U & _).
      unfold processed. destruct (nth_error (p_queues w) p) as [q|] eqn:E; [|reflexivity]. exact (U p q (le_n p) E).
  Qed.
End Pool.

(** ** what every run from a fresh stage or pool satisfies *)
Section Reach.
  Variables B nq nw : nat.
  Variable progs : list (list Z).
  Hypothesis BP : (0 < B)%nat.
  Hypothesis NW : (nw <= nq)%nat.
  Variables (s : list agent) (w : pworld).
  Hypothesis R : prun B (pstart B nq nw progs) s = Ok w.

  Lemma reach_inv : ginv B nq nw w /\ untouched nw w /\ binv B w /\ pinv progs w.
  Proof.
    destruct (prun_binv B nq nw BP NW s _ w (ginv_start B nq nw BP NW progs) (untouched_start B nq nw progs)
                (binv_start B nq nw progs) R) as (I & U & H).
    split; [exact I|]. split; [exact U|]. split; [exact H|]. exact (prun_pinv B progs s _ w (pinv_start B nq nw progs) R).
  Qed.

  Lemma done_all_pushed n q : (n < nw)%nat -> all_done w -> nth_error (p_queues w) n = Some q ->
    p_closed w = true /\ length (q_done q) = length (q_log q).
  Proof.
    intros L D E. destruct reach_inv as (I & _ & _ & _).
    destruct (nth_error (p_workers w) n) as [pc|] eqn:EW.
    2:{ apply nth_error_None in EW. rewrite (g_nw _ _ _ _ I) in EW. lia. }
    assert (pc = WDone) as -> by (apply D; eapply nth_error_In; exact EW).
    pose proof (g_w _ _ _ _ I n q _ E EW) as WG. cbn [wgood] in WG.
    pose proof (qg_tail _ _ _ _ (g_q _ _ _ _ I n q E)). intuition lia.
  Qed.

  Lemma bounded_prefix n q : nth_error (p_queues w) n = Some q -> (length (q_log q) <= B)%nat ->
    map snd (q_log q) = q_done q ++ skipn (length (q_done q)) (map snd (q_log q)).
  Proof.
    intros E L. destruct reach_inv as (_ & _ & H & _). destruct (H n q E L) as [_ _ H3].
    rewrite H3 at 1. symmetry. apply firstn_skipn.
  Qed.

  Lemma closed_unpushed : p_closed w = true -> unpushed w = [].
  Proof.
    intros C. destruct reach_inv as (I & _ & _ & _). unfold unpushed. apply concat_nil_Forall, Forall_forall.
    intros x Hx. apply in_map_iff in Hx. destruct Hx as (p & <- & Hp).
    pose proof (g_closed _ _ _ _ I C p Hp) as H. apply idle_true in H. apply H.
  Qed.
End Reach.
