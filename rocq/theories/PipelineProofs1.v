(** Invariants of the pipeline machine. *)
From Verif Require Export PipelineSpec.

Lemma upd_split {A} (l : list A) i y x : nth_error l i = Some y ->
  exists l1 l2, l = l1 ++ y :: l2 /\ length l1 = i /\ upd_nth l i x = l1 ++ x :: l2.
Proof.
  revert i. induction l as [|z l IH]; intros [|i] H; cbn in *; try discriminate.
  - inversion H; subst. exists [], l. repeat split; reflexivity.
  - destruct (IH i H) as (l1 & l2 & -> & H2 & H3). exists (z :: l1), l2. cbn.
    rewrite H3. subst i. repeat split; reflexivity.
Qed.
Lemma upd_len {A} (l : list A) : forall i x, length (upd_nth l i x) = length l.
Proof. induction l as [|y l IH]; intros [|i] x; cbn; [reflexivity..|]. rewrite IH. reflexivity. Qed.
Lemma upd_same {A} (l : list A) : forall i x, (i < length l)%nat -> nth_error (upd_nth l i x) i = Some x.
Proof.
  induction l as [|y l IH]; intros [|i] x H; cbn in *; try lia; [reflexivity|]. apply IH. lia.
Qed.
Lemma upd_other {A} (l : list A) : forall i j x, i <> j -> nth_error (upd_nth l i x) j = nth_error l j.
Proof.
  induction l as [|y l IH]; intros [|i] [|j] x H; cbn; try reflexivity; try congruence. apply IH. lia.
Qed.
Lemma nth_lt {A} (l : list A) i x : nth_error l i = Some x -> (i < length l)%nat.
Proof. intros H. apply nth_error_Some. congruence. Qed.
Lemma upd_get {A} (l : list A) i j x z : nth_error (upd_nth l i x) j = Some z ->
  (i = j /\ z = x /\ (i < length l)%nat) \/ (i <> j /\ nth_error l j = Some z).
Proof.
  intros H. destruct (Nat.eq_dec i j) as [->|N].
  - left. assert (L : (j < length l)%nat) by (rewrite <- (upd_len l j x); eapply nth_lt; exact H).
    rewrite upd_same in H by exact L. inversion H. tauto.
  - right. rewrite upd_other in H by exact N. tauto.
Qed.

Definition engaged (s : list (option Z)) (j : nat) : Prop := exists v, nth_error s j = Some (Some v).
Definition holds (p : prod) (q i : nat) (v : Z) : Prop := pr_pc p = PTicket q i v \/ pr_pc p = PStoring q i v.

Section Inv.
  Variables B nq nw : nat.
  Hypothesis BP : (0 < B)%nat.
  Hypothesis NW : (nw <= nq)%nat.

  Record qgood (w : pworld) (n : nat) (q : queue) : Prop := {
    qg_len : length (q_slots q) = B;
    qg_tail : q_tail q = length (q_log q);
    qg_head : (q_head q <= q_tail q)%nat;
    qg_vals : forall j v, nth_error (q_slots q) j = Some (Some v) -> In v (map snd (q_log q));
    qg_done : forall v, In v (q_done q) -> In v (map snd (q_log q));
    qg_filled : forall i, (i < q_tail q)%nat -> engaged (q_slots q) (i mod B) \/
                  exists k p v, nth_error (p_prods w) k = Some p /\ holds p n i v
  }.

  Definition wgood (closed : bool) (q : queue) (pc : wpc) : Prop :=
    match pc with
    | WCheck => (q_head q < q_tail q)%nat /\ length (q_done q) = q_head q
    | WTake => (q_head q < q_tail q)%nat /\ engaged (q_slots q) (q_head q mod B) /\ length (q_done q) = q_head q
    | WRead i => q_head q = S i /\ engaged (q_slots q) (i mod B) /\ length (q_done q) = i
    | WOuter2 => closed = true /\ length (q_done q) = q_head q
    | WDone => closed = true /\ q_head q = q_tail q /\ length (q_done q) = q_head q
    | _ => length (q_done q) = q_head q
    end.

  Record ginv (w : pworld) : Prop := {
    g_nq : length (p_queues w) = nq;
    g_nw : length (p_workers w) = nw;
    g_q : forall n q, nth_error (p_queues w) n = Some q -> qgood w n q;
    g_w : forall n q pc, nth_error (p_queues w) n = Some q -> nth_error (p_workers w) n = Some pc ->
            wgood (p_closed w) q pc;
    g_p : forall k p n i v, nth_error (p_prods w) k = Some p -> holds p n i v ->
            exists q, nth_error (p_queues w) n = Some q /\ nth_error (q_log q) i = Some (k, v);
    g_closed : p_closed w = true -> forall p, In p (p_prods w) -> idle p = true
  }.

  Lemma engaged_upd s j k v : engaged s k -> engaged (upd_nth s j (Some v)) k.
  Proof.
    intros [x H]. destruct (Nat.eq_dec j k) as [->|N].
    - exists v. apply upd_same. eapply nth_lt; exact H.
    - exists x. rewrite upd_other by exact N. exact H.
  Qed.

  Lemma wgood_mono c c' q q' pc :
    wgood c q pc -> (c = true -> c' = true) -> (c = true -> q_tail q' = q_tail q) ->
    q_head q' = q_head q -> q_done q' = q_done q -> (q_tail q <= q_tail q')%nat ->
    (forall j, engaged (q_slots q) j -> engaged (q_slots q') j) ->
    wgood c' q' pc.
  Proof.
    intros G HC HT HH HD HL HE. unfold wgood in *. rewrite HH, HD. destruct pc; try exact G.
    - destruct G. split; [apply HC; assumption|assumption].
    - destruct G. split; [lia|assumption].
    - destruct G as (A & E & L). split; [lia|]. split; [apply HE, E|exact L].
    - destruct G as (A & E & L). split; [exact A|]. split; [apply HE, E|exact L].
    - destruct G as (A & E & L). split; [apply HC, A|]. split; [rewrite HT by exact A; exact E|exact L].
  Qed.

  Lemma idle_true p : idle p = true <-> pr_items p = [] /\ pr_pc p = PIdle.
  Proof.
    unfold idle. destruct (pr_items p), (pr_pc p); split; intros H; try discriminate; try (destruct H; discriminate); tauto.
  Qed.

  (** A worker's own step, seen on its queue. *)
  Lemma wstep_ok w n q pc : qgood w n q -> wgood (p_closed w) q pc ->
    exists q' pc', wstep B (p_closed w) q pc = Ok (q', pc') /\
      wgood (p_closed w) q' pc' /\ q_slots q' = q_slots q /\ q_tail q' = q_tail q /\ q_log q' = q_log q /\
      (q_head q' <= q_tail q')%nat /\
      (forall v, In v (q_done q') -> In v (map snd (q_log q))) /\
      (q_done q' = q_done q \/ exists i v, pc = WRead i /\ nth_error (q_slots q) (i mod B) = Some (Some v) /\
                                    q_done q' = q_done q ++ [v]).
  Proof.
    intros G WG. destruct G as [G1 G2 G3 G4 G5 G6]. destruct pc as [| | | | |i| |]; cbn [wstep wgood] in *.
    - eexists. eexists. split; [reflexivity|]. destruct (p_closed w); cbn; tauto.
    - eexists. eexists. split; [reflexivity|].
      destruct (Nat.eqb_spec (q_tail q) (q_head q)); cbn; intuition.
    - eexists. eexists. split; [reflexivity|].
      destruct (Nat.ltb_spec (q_head q) (q_tail q)); cbn; intuition.
    - assert (L : (q_head q mod B < length (q_slots q))%nat) by (rewrite G1; apply Nat.mod_upper_bound; lia).
      apply nth_error_Some in L. destruct (nth_error (q_slots q) (q_head q mod B)) as [[v|]|] eqn:E; [| |congruence].
      + eexists. eexists. split; [reflexivity|]. cbn. unfold engaged. intuition. exists v. exact E.
      + eexists. eexists. split; [reflexivity|]. cbn. intuition.
    - eexists. eexists. split; [reflexivity|]. cbn. intuition.
    - destruct WG as (H1 & [v Hv] & H3). rewrite Hv. eexists. eexists. split; [reflexivity|].
      cbn. rewrite app_length. cbn [length]. split; [lia|]. do 3 (split; [reflexivity|]). split; [exact G3|]. split.
      + intros x Hx. rewrite in_app_iff in Hx. destruct Hx as [Hx|[<-|[]]]; [apply G5, Hx|]. eapply G4, Hv.
      + right. exists i, v. tauto.
    - eexists. eexists. split; [reflexivity|]. cbn. tauto.
    - eexists. eexists. split; [reflexivity|]. cbn. tauto.
  Qed.

  Lemma pstep_ok w a : ginv w -> exists w', pstep B w a = Ok w' /\ ginv w'.
  Proof.
    intros I. destruct a as [k n|n|]; cbn [pstep].
    - (* producer *)
      destruct (nth_error (p_prods w) k) as [p|] eqn:EP; [|exists w; tauto].
      assert (LK : (k < length (p_prods w))%nat) by (eapply nth_lt; exact EP).
      destruct (pr_pc p) as [|n' i v|n' i v] eqn:EC.
      + destruct (pr_items p) as [|v rest] eqn:EI; [exists w; tauto|].
        destruct (nth_error (p_queues w) n) as [q|] eqn:EQ; [|exists w; tauto].
        eexists. split; [reflexivity|].
        assert (NC : p_closed w = false).
        { destruct (p_closed w) eqn:C; [|reflexivity]. exfalso.
          pose proof (g_closed w I C p (nth_error_In _ _ EP)) as H. apply idle_true in H. destruct H; congruence. }
        destruct (g_q w I n q EQ) as [G1 G2 G3 G4 G5 G6].
        assert (LN : (n < length (p_queues w))%nat) by (eapply nth_lt; exact EQ).
        split; cbn [p_queues p_workers p_prods p_closed].
        * rewrite upd_len. apply (g_nq w I).
        * apply (g_nw w I).
        * intros m q' E. apply upd_get in E. destruct E as [(-> & -> & _)|(N & E)].
          -- split; cbn [take_ticket q_slots q_tail q_head q_log q_done p_prods].
             ++ exact G1.
             ++ rewrite app_length. cbn. lia.
             ++ lia.
             ++ intros j x H. rewrite map_app, in_app_iff. left. eapply G4, H.
             ++ intros x H. rewrite map_app, in_app_iff. left. apply G5, H.
             ++ intros i Hi. destruct (Nat.eq_dec i (q_tail q)) as [->|N].
                ** right. exists k, (Prod rest (PTicket m (q_tail q) v)), v. split; [apply upd_same, LK|left; reflexivity].
                ** destruct (G6 i ltac:(lia)) as [E|(k' & p' & v' & E1 & E2)]; [left; exact E|].
                   right. exists k', p', v'. split; [|exact E2].
                   rewrite upd_other; [exact E1|]. intros ->. rewrite EP in E1. inversion E1; subst p'.
                   destruct E2; congruence.
          -- destruct (g_q w I m q' E) as [F1 F2 F3 F4 F5 F6]. split; try assumption. cbn [p_prods].
             intros i Hi. destruct (F6 i Hi) as [H|(k' & p' & v' & E1 & E2)]; [left; exact H|].
             right. exists k', p', v'. split; [|exact E2].
             rewrite upd_other; [exact E1|]. intros ->. rewrite EP in E1. inversion E1; subst p'.
             destruct E2; congruence.
        * intros m q' pc E EW. apply upd_get in E. destruct E as [(-> & -> & _)|(N & E)]; [|exact (g_w w I m q' pc E EW)].
          eapply wgood_mono; [exact (g_w w I m q pc EQ EW)|tauto|intros; congruence|reflexivity|reflexivity|cbn; lia|tauto].
        * intros k' p' m i x E H. apply upd_get in E. destruct E as [(-> & -> & _)|(N & E)].
          -- destruct H as [H|H]; cbn [pr_pc] in H; inversion H; subst.
             exists (take_ticket q k' x). split; [apply upd_same, LN|].
             cbn [take_ticket q_log]. rewrite G2, nth_error_app2, Nat.sub_diag by lia. reflexivity.
          -- destruct (g_p w I k' p' m i x E H) as (q' & Eq & El).
             destruct (Nat.eq_dec n m) as [->|NM].
             ++ exists (take_ticket q k v). split; [apply upd_same, LN|].
                rewrite EQ in Eq. inversion Eq; subst q'. cbn [take_ticket q_log].
                rewrite nth_error_app1 by (eapply nth_lt; exact El). exact El.
             ++ exists q'. rewrite upd_other by exact NM. tauto.
        * congruence.
      + (* start the assignment *)
        eexists. split; [reflexivity|].
        assert (HH : forall m i0 v0, holds p m i0 v0 <-> holds (Prod (pr_items p) (PStoring n' i v)) m i0 v0).
        { intros m i0 v0. unfold holds. rewrite EC. cbn. split; (intros [H|H]; inversion H; subst; tauto). }
        split; cbn [p_queues p_workers p_prods p_closed].
        * apply (g_nq w I).
        * apply (g_nw w I).
        * intros m q E. destruct (g_q w I m q E) as [F1 F2 F3 F4 F5 F6]. split; try assumption. cbn [p_prods].
          intros j Hj. destruct (F6 j Hj) as [H|(k' & p' & v' & E1 & E2)]; [left; exact H|].
          right. destruct (Nat.eq_dec k k') as [<-|N].
          -- rewrite EP in E1. inversion E1; subst p'. eexists k, _, v'. split; [apply upd_same, LK|]. apply HH, E2.
          -- exists k', p', v'. rewrite upd_other by exact N. tauto.
        * intros m q pc E EW. exact (g_w w I m q pc E EW).
        * intros k' p' m j x E H. apply upd_get in E. destruct E as [(-> & -> & _)|(N & E)].
          -- exact (g_p w I k' p m j x EP (proj2 (HH m j x) H)).
          -- exact (g_p w I k' p' m j x E H).
        * intros C p' Hin. exfalso. pose proof (g_closed w I C p (nth_error_In _ _ EP)) as H.
          apply idle_true in H. destruct H; congruence.
      + (* finish it *)
        destruct (g_p w I k p n' i v EP (or_intror EC)) as (q & EQ & EL). rewrite EQ.
        eexists. split; [reflexivity|].
        destruct (g_q w I n' q EQ) as [G1 G2 G3 G4 G5 G6].
        assert (LN : (n' < length (p_queues w))%nat) by (eapply nth_lt; exact EQ).
        assert (LB : (i mod B < length (q_slots q))%nat) by (rewrite G1; apply Nat.mod_upper_bound; lia).
        assert (NC : p_closed w = false).
        { destruct (p_closed w) eqn:C; [|reflexivity]. exfalso.
          pose proof (g_closed w I C p (nth_error_In _ _ EP)) as H. apply idle_true in H. destruct H; congruence. }
        split; cbn [p_queues p_workers p_prods p_closed].
        * rewrite upd_len. apply (g_nq w I).
        * apply (g_nw w I).
        * intros m q' E. apply upd_get in E. destruct E as [(-> & -> & _)|(N & E)].
          -- split; cbn [store q_slots q_tail q_head q_log q_done p_prods]; try assumption.
             ++ rewrite upd_len. exact G1.
             ++ intros j x H. apply upd_get in H. destruct H as [(_ & H & _)|(_ & H)].
                ** inversion H; subst x. apply in_map_iff. exists (k, v). split; [reflexivity|]. eapply nth_error_In, EL.
                ** eapply G4, H.
             ++ intros j Hj. destruct (Nat.eq_dec j i) as [->|NJ].
                ** left. exists v. apply upd_same, LB.
                ** destruct (G6 j Hj) as [H|(k' & p' & v' & E1 & E2)]; [left; apply engaged_upd, H|].
                   right. exists k', p', v'. split; [|exact E2]. rewrite upd_other; [exact E1|]. intros ->.
                   rewrite EP in E1. inversion E1; subst p'. destruct E2 as [E2|E2]; rewrite EC in E2; congruence.
          -- destruct (g_q w I m q' E) as [F1 F2 F3 F4 F5 F6]. split; try assumption. cbn [p_prods].
             intros j Hj. destruct (F6 j Hj) as [H|(k' & p' & v' & E1 & E2)]; [left; exact H|].
             right. exists k', p', v'. split; [|exact E2]. rewrite upd_other; [exact E1|]. intros ->.
             rewrite EP in E1. inversion E1; subst p'. destruct E2 as [E2|E2]; rewrite EC in E2; congruence.
        * intros m q' pc E EW. apply upd_get in E. destruct E as [(-> & -> & _)|(N & E)]; [|exact (g_w w I m q' pc E EW)].
          eapply wgood_mono; [exact (g_w w I m q pc EQ EW)|tauto|reflexivity|reflexivity|reflexivity|cbn; lia|].
          intros j. cbn [store q_slots]. apply engaged_upd.
        * intros k' p' m j x E H. apply upd_get in E. destruct E as [(-> & -> & _)|(N & E)].
          -- destruct H as [H|H]; cbn in H; discriminate.
          -- destruct (g_p w I k' p' m j x E H) as (q' & Eq & El).
             destruct (Nat.eq_dec n' m) as [->|NM].
             ++ exists (store B q i v). split; [apply upd_same, LN|].
                rewrite EQ in Eq. inversion Eq; subst q'. exact El.
             ++ exists q'. rewrite upd_other by exact NM. tauto.
        * congruence.
    - (* worker *)
      destruct (nth_error (p_workers w) n) as [pc|] eqn:EW; [|exists w; tauto].
      destruct (nth_error (p_queues w) n) as [q|] eqn:EQ.
      2:{ exfalso. apply nth_error_None in EQ. apply nth_lt in EW. rewrite (g_nq w I) in EQ. rewrite (g_nw w I) in EW. lia. }
      destruct (wstep_ok w n q pc (g_q w I n q EQ) (g_w w I n q pc EQ EW))
        as (q' & pc' & ES & WG & E1 & E2 & E3 & E4 & E5 & _).
      rewrite ES. cbn [bind]. eexists. split; [reflexivity|].
      destruct (g_q w I n q EQ) as [G1 G2 G3 G4 G5 G6].
      assert (LN : (n < length (p_queues w))%nat) by (eapply nth_lt; exact EQ).
      split; cbn [p_queues p_workers p_prods p_closed].
      + rewrite upd_len. apply (g_nq w I).
      + rewrite upd_len. apply (g_nw w I).
      + intros m x E. apply upd_get in E. destruct E as [(-> & -> & _)|(N & E)].
        * split; cbn [p_prods]; rewrite ?E1, ?E2, ?E3; try assumption; congruence.
        * destruct (g_q w I m x E) as [F1 F2 F3 F4 F5 F6]. split; assumption.
      + intros m x y E E'. apply upd_get in E. apply upd_get in E'.
        destruct E as [(-> & -> & _)|(N & E)], E' as [(M & -> & _)|(M & E')]; try congruence.
        exact (g_w w I m x y E E').
      + intros k p m i v E H. destruct (g_p w I k p m i v E H) as (x & Ex & El).
        destruct (Nat.eq_dec n m) as [->|NM].
        * exists q'. split; [apply upd_same, LN|]. rewrite EQ in Ex. inversion Ex; subst x. rewrite E3. exact El.
        * exists x. rewrite upd_other by exact NM. tauto.
      + apply (g_closed w I).
    - (* close *)
      eexists. split; [reflexivity|]. split; cbn [p_queues p_workers p_prods p_closed].
      + apply (g_nq w I).
      + apply (g_nw w I).
      + intros m q E. destruct (g_q w I m q E). split; assumption.
      + intros m q pc E EW. eapply wgood_mono; [exact (g_w w I m q pc E EW)| |reflexivity|reflexivity|reflexivity|lia|tauto].
        intros ->. reflexivity.
      + apply (g_p w I).
      + intros C p Hin. destruct (p_closed w) eqn:CC; [exact (g_closed w I CC p Hin)|].
        cbn in C. eapply forallb_forall in C; [exact C|exact Hin].
  Qed.

  Lemma ginv_start progs : ginv (pstart B nq nw progs).
  Proof.
    unfold pstart. split; cbn [p_queues p_workers p_prods p_closed].
    - apply repeat_length.
    - apply repeat_length.
    - intros n q E. apply nth_error_In, repeat_spec in E. subst q.
      split; cbn [fresh_queue q_slots q_tail q_head q_log q_done]; try reflexivity; try lia.
      + apply repeat_length.
      + intros j v H. apply nth_error_In, repeat_spec in H. discriminate.
      + intros v [].
    - intros n q pc E EW. apply nth_error_In, repeat_spec in E. apply nth_error_In, repeat_spec in EW. subst. reflexivity.
    - intros k p n i v E H. apply nth_error_In, in_map_iff in E. destruct E as (l & <- & _). destruct H; discriminate.
    - discriminate.
  Qed.

  Lemma prun_ok s : forall w, ginv w -> exists w', prun B w s = Ok w' /\ ginv w'.
  Proof.
    induction s as [|a s IH]; intros w I; cbn [prun]; [exists w; tauto|].
    destruct (pstep_ok w a I) as (w1 & E & I1). rewrite E. cbn [bind]. apply IH, I1.
  Qed.

  Lemma pstep_inv w a w' : ginv w -> pstep B w a = Ok w' -> ginv w'.
  Proof. intros I E. destruct (pstep_ok w a I) as (x & E' & I'). congruence. Qed.

  Lemma prun_start_inv progs s w : prun B (pstart B nq nw progs) s = Ok w -> ginv w.
  Proof. intros E. destruct (prun_ok s _ (ginv_start progs)) as (x & E' & I'). congruence. Qed.

  (** ** at most B tickets: the right values *)
  Record bgood (w : pworld) (n : nat) (q : queue) : Prop := {
    b_slot : forall i v, nth_error (q_slots q) i = Some (Some v) -> nth_error (map snd (q_log q)) i = Some v;
    b_held : forall k p i v, nth_error (p_prods w) k = Some p -> holds p n i v ->
               nth_error (q_slots q) i = Some None;
    b_done : q_done q = firstn (length (q_done q)) (map snd (q_log q))
  }.
  Definition binv (w : pworld) : Prop :=
    forall n q, nth_error (p_queues w) n = Some q -> (length (q_log q) <= B)%nat -> bgood w n q.

  Lemma done_le w n q : ginv w -> nth_error (p_queues w) n = Some q -> (n < nw)%nat ->
    (length (q_done q) <= length (q_log q))%nat.
  Proof.
    intros I EQ LN. destruct (nth_error (p_workers w) n) as [pc|] eqn:EW.
    - pose proof (g_w w I n q pc EQ EW) as WG. destruct (g_q w I n q EQ) as [_ G2 G3 _ _ _].
      destruct pc; cbn [wgood] in WG; lia.
    - apply nth_error_None in EW. rewrite (g_nw w I) in EW. lia.
  Qed.

  (** Queues without a worker are never looked at. *)
  Definition untouched (w : pworld) : Prop :=
    forall n q, (nw <= n)%nat -> nth_error (p_queues w) n = Some q -> q_done q = [].
  Lemma pstep_untouched w a w' : ginv w -> untouched w -> pstep B w a = Ok w' -> untouched w'.
  Proof.
    intros I U E. destruct a as [k n|n|]; cbn [pstep] in E.
    - destruct (nth_error (p_prods w) k) as [p|]; [|inversion E; subst; exact U].
      destruct (pr_pc p) as [|n' i v|n' i v].
      + destruct (pr_items p) as [|v rest]; [inversion E; subst; exact U|].
        destruct (nth_error (p_queues w) n) as [q|] eqn:EQ; [|inversion E; subst; exact U].
        inversion E; subst w'. intros m x L Ex. cbn [p_queues] in Ex. apply upd_get in Ex.
        destruct Ex as [(-> & -> & _)|(_ & Ex)]; [exact (U m q L EQ)|exact (U m x L Ex)].
      + inversion E; subst w'. exact U.
      + destruct (nth_error (p_queues w) n') as [q|] eqn:EQ; [|discriminate].
        inversion E; subst w'. intros m x L Ex. cbn [p_queues] in Ex. apply upd_get in Ex.
        destruct Ex as [(-> & -> & _)|(_ & Ex)]; [exact (U m q L EQ)|exact (U m x L Ex)].
    - destruct (nth_error (p_workers w) n) as [pc|] eqn:EW; [|inversion E; subst; exact U].
      assert (LN : (n < nw)%nat) by (rewrite <- (g_nw w I); eapply nth_lt; exact EW).
      destruct (nth_error (p_queues w) n) as [q|] eqn:EQ; [|discriminate].
      destruct (wstep B (p_closed w) q pc) as [[q' pc']| |]; cbn [bind] in E; try discriminate.
      inversion E; subst w'. intros m x L Ex. cbn [p_queues] in Ex. apply upd_get in Ex.
      destruct Ex as [(-> & _ & _)|(_ & Ex)]; [lia|exact (U m x L Ex)].
    - inversion E; subst w'. exact U.
  Qed.

  Lemma untouched_start progs : untouched (pstart B nq nw progs).
  Proof. intros n q _ E. apply nth_error_In, repeat_spec in E. subst q. reflexivity. Qed.

  Lemma pstep_binv w a w' : ginv w -> untouched w -> binv w -> pstep B w a = Ok w' -> binv w'.
  Proof.
    intros I U H E. pose proof (pstep_inv w a w' I E) as I'.
    assert (DL : forall n q, nth_error (p_queues w) n = Some q -> (length (q_done q) <= length (q_log q))%nat).
    { intros n q Eq. destruct (Nat.lt_ge_cases n nw) as [L|L]; [exact (done_le w n q I Eq L)|].
      rewrite (U n q L Eq). cbn. lia. }
    destruct a as [k n|n|]; cbn [pstep] in E.
    - destruct (nth_error (p_prods w) k) as [p|] eqn:EP; [|inversion E; subst; exact H].
      assert (LK : (k < length (p_prods w))%nat) by (eapply nth_lt; exact EP).
      destruct (pr_pc p) as [|n' i v|n' i v] eqn:EC.
      + destruct (pr_items p) as [|v rest]; [inversion E; subst; exact H|].
        destruct (nth_error (p_queues w) n) as [q|] eqn:EQ; [|inversion E; subst; exact H].
        inversion E; subst w'. clear E. intros m x Ex L. cbn [p_queues] in Ex. apply upd_get in Ex.
        destruct (g_q w I n q EQ) as [G1 G2 G3 G4 G5 G6].
        destruct Ex as [(-> & -> & _)|(N & Ex)].
        * cbn [take_ticket q_log] in L. rewrite app_length in L. cbn [length] in L.
          destruct (H m q EQ ltac:(lia)) as [H1 H2 H3].
          split; cbn [take_ticket q_slots q_log q_done p_prods].
          -- intros j y Hj. specialize (H1 j y Hj). rewrite map_app, nth_error_app1; [exact H1|]. eapply nth_lt; exact H1.
          -- intros k' p' j y E1 E2. apply upd_get in E1. destruct E1 as [(-> & -> & _)|(NK & E1)].
             ++ destruct E2 as [E2|E2]; cbn [pr_pc] in E2; inversion E2; subst j y.
                assert (LB : (q_tail q < length (q_slots q))%nat) by lia.
                apply nth_error_Some in LB. destruct (nth_error (q_slots q) (q_tail q)) as [[y|]|] eqn:ES; [|reflexivity|congruence].
                specialize (H1 _ _ ES). apply nth_lt in H1. rewrite map_length in H1. lia.
             ++ eapply H2; eassumption.
          -- rewrite map_app, firstn_app. specialize (DL m q EQ).
             replace (length (q_done q) - length (map snd (q_log q)))%nat with 0%nat by (rewrite map_length; lia).
             cbn [firstn]. rewrite app_nil_r. exact H3.
        * destruct (H m x Ex L) as [H1 H2 H3]. split; try assumption. cbn [p_prods].
          intros k' p' j y E1 E2. apply upd_get in E1. destruct E1 as [(-> & -> & _)|(NK & E1)].
          -- exfalso. destruct E2 as [E2|E2]; cbn [pr_pc] in E2; [|discriminate]. injection E2; intros; congruence.
          -- eapply H2; eassumption.
      + inversion E; subst w'. clear E. intros m x Ex L. cbn [p_queues] in Ex.
        destruct (H m x Ex L) as [H1 H2 H3]. split; try assumption. cbn [p_prods].
        intros k' p' j y E1 E2. apply upd_get in E1. destruct E1 as [(-> & -> & _)|(NK & E1)].
        * apply (H2 k' p j y EP). unfold holds in *. rewrite EC. cbn in E2. destruct E2 as [E2|E2]; inversion E2; subst; tauto.
        * eapply H2; eassumption.
      + destruct (g_p w I k p n' i v EP (or_intror EC)) as (q & EQ & EL). rewrite EQ in E.
        inversion E; subst w'. clear E. intros m x Ex L. cbn [p_queues] in Ex. apply upd_get in Ex.
        destruct (g_q w I n' q EQ) as [G1 G2 G3 G4 G5 G6].
        destruct Ex as [(-> & -> & _)|(N & Ex)].
        * cbn [store q_log] in L.
          destruct (H m q EQ L) as [H1 H2 H3].
          assert (LI : (i < length (q_log q))%nat) by (eapply nth_lt; exact EL).
          assert (MI : (i mod B = i)%nat) by (apply Nat.mod_small; lia).
          split; cbn [store q_slots q_log q_done p_prods]; rewrite ?MI.
          -- intros j y Hj. apply upd_get in Hj. destruct Hj as [(-> & Hy & _)|(NJ & Hj)].
             ++ inversion Hy; subst y. rewrite nth_error_map, EL. reflexivity.
             ++ apply H1, Hj.
          -- intros k' p' j y E1 E2. apply upd_get in E1. destruct E1 as [(-> & -> & _)|(NK & E1)].
             ++ destruct E2 as [E2|E2]; cbn in E2; discriminate.
             ++ destruct (g_p w I k' p' m j y E1 E2) as (q2 & Eq2 & El2).
                rewrite EQ in Eq2. inversion Eq2; subst q2.
                rewrite upd_other; [eapply H2; eassumption|]. intros ->. rewrite EL in El2. congruence.
          -- exact H3.
        * destruct (H m x Ex L) as [H1 H2 H3]. split; try assumption. cbn [p_prods].
          intros k' p' j y E1 E2. apply upd_get in E1. destruct E1 as [(-> & -> & _)|(NK & E1)].
          -- destruct E2 as [E2|E2]; cbn in E2; discriminate.
          -- eapply H2; eassumption.
    - destruct (nth_error (p_workers w) n) as [pc|] eqn:EW; [|inversion E; subst; exact H].
      destruct (nth_error (p_queues w) n) as [q|] eqn:EQ; [|discriminate].
      destruct (wstep_ok w n q pc (g_q w I n q EQ) (g_w w I n q pc EQ EW))
        as (q' & pc' & ES & _ & E1 & E2 & E3 & E4 & E5 & E6).
      rewrite ES in E. cbn [bind] in E. inversion E; subst w'. clear E.
      intros m x Ex L. cbn [p_queues] in Ex. apply upd_get in Ex.
      destruct Ex as [(-> & -> & _)|(N & Ex)].
      + rewrite E3 in L. destruct (H m q EQ L) as [H1 H2 H3].
        split; rewrite ?E1, ?E3; try assumption.
        destruct E6 as [E6|(i & v & -> & Hv & E6)]; [rewrite E6; exact H3|].
        rewrite E6, app_length. cbn [length].
        pose proof (g_w w I m q _ EQ EW) as WG. cbn [wgood] in WG. destruct WG as (W1 & W2 & W3).
        destruct (g_q w I m q EQ) as [G1 G2 G3 G4 G5 G6].
        rewrite Nat.mod_small in Hv by lia. specialize (H1 i v Hv). rewrite H3 at 1. rewrite W3.
        replace (i + 1)%nat with (S i) by lia. clear -H1.
        revert H1. generalize (map snd (q_log q)) as l. induction i as [|i IH]; intros [|y l] H1; cbn in *; try discriminate.
        * inversion H1. reflexivity.
        * f_equal. apply IH, H1.
      + destruct (H m x Ex L) as [H1 H2 H3]. split; assumption.
    - inversion E; subst w'. intros m x Ex L. destruct (H m x Ex L) as [H1 H2 H3]. split; assumption.
  Qed.

  Lemma binv_start progs : binv (pstart B nq nw progs).
  Proof.
    intros n q E _. apply nth_error_In, repeat_spec in E. subst q. split; cbn.
    - intros i v H. apply nth_error_In, repeat_spec in H. discriminate.
    - intros k p i v E H. apply nth_error_In, in_map_iff in E. destruct E as (l & <- & _). destruct H; discriminate.
    - reflexivity.
  Qed.

  Lemma prun_binv s : forall w w', ginv w -> untouched w -> binv w -> prun B w s = Ok w' ->
    ginv w' /\ untouched w' /\ binv w'.
  Proof.
    induction s as [|a s IH]; intros w w' I U H E; cbn [prun] in E; [inversion E; subst; tauto|].
    destruct (pstep B w a) as [w1| |] eqn:E1; cbn [bind] in E; try discriminate.
    eapply IH; [eapply pstep_inv; eassumption|eapply pstep_untouched; eassumption|eapply pstep_binv; eassumption|exact E].
  Qed.
End Inv.
