(** Lemmas about chained stages: each stage runs as a stage of its own whose producer
    pushes what the stage before has processed. *)
From Verif Require Export PipelineProofs2 ChainSpec.

Definition reach (B : nat) (progs : list (list Z)) (w : pworld) : Prop :=
  exists s, prun B (stage_start B progs) s = Ok w.

Lemma reach_step B progs w a w' : reach B progs w -> pstep B w a = Ok w' -> reach B progs w'.
Proof.
  intros [s R] E. exists (s ++ [a]). rewrite prun_app, R. cbn [bind prun]. rewrite E. reflexivity.
Qed.

Lemma closed_back B w a w' : pstep B w a = Ok w' -> p_closed w' = false -> p_closed w = false.
Proof. intros E C. destruct (p_closed w) eqn:D; [|reflexivity]. rewrite (closed_stays B w a w' D E) in C. discriminate. Qed.

Lemma one_prod B L w : reach B [L] w -> exists p, p_prods w = [p].
Proof.
  intros [s R]. revert w R. induction s as [|a s IH] using rev_ind; intros w R.
  - inversion R. eexists. reflexivity.
  - rewrite prun_app in R. destruct (prun B _ s) as [w1| |] eqn:E1; cbn [bind prun] in R; try discriminate.
    destruct (IH w1 eq_refl) as [p EP].
    destruct (pstep B w1 a) as [w2| |] eqn:E2; cbn [bind prun] in R; try discriminate. inversion R; subst w2. clear R.
    destruct a as [k n|n|]; cbn [pstep] in E2.
    + rewrite EP in E2. destruct k as [|k]; cbn [nth_error] in E2.
      * destruct (pr_pc p).
        -- destruct (pr_items p); [inversion E2; subst; eauto|]. destruct (nth_error (p_queues w1) n); inversion E2; subst; cbn [p_prods upd_nth]; eauto.
        -- inversion E2; subst; cbn [p_prods upd_nth]; eauto.
        -- destruct (nth_error (p_queues w1) q); inversion E2; subst; cbn [p_prods upd_nth]; eauto.
      * assert (nth_error (@nil prod) k = None) as EN by (destruct k; reflexivity). rewrite EN in E2. inversion E2; subst; eauto.
    + destruct (nth_error (p_workers w1) n); [|inversion E2; subst; eauto].
      destruct (nth_error (p_queues w1) n); [|discriminate].
      destruct (wstep _ _ _ _) as [[? ?]| |]; cbn [bind] in E2; inversion E2; subst; cbn [p_prods]; eauto.
    + inversion E2; subst; cbn [p_prods]; eauto.
Qed.

(** The producer may have one more item to push. *)
Lemma reach_hand B L x w : reach B [L] w -> p_closed w = false -> reach B [L ++ [x]] (hand w x).
Proof.
  intros [s R]. revert w R. induction s as [|a s IH] using rev_ind; intros w R C.
  - inversion R. exists []. reflexivity.
  - rewrite prun_app in R. destruct (prun B _ s) as [w1| |] eqn:E1; cbn [bind prun] in R; try discriminate.
    destruct (pstep B w1 a) as [w2| |] eqn:E2; cbn [bind prun] in R; try discriminate. inversion R; subst w2. clear R.
    specialize (IH w1 eq_refl (closed_back B w1 a w E2 C)).
    destruct (one_prod B L w1 (ex_intro _ s E1)) as [p EP].
    destruct a as [k n|n|].
    + cbn [pstep] in E2. rewrite EP in E2. destruct k as [|k]; cbn [nth_error] in E2.
      2:{ assert (nth_error (@nil prod) k = None) as EN by (destruct k; reflexivity). rewrite EN in E2. inversion E2; subst. exact IH. }
      destruct (pr_pc p) eqn:EC.
      * destruct (pr_items p) as [|v r] eqn:EI; [inversion E2; subst; exact IH|].
        destruct (nth_error (p_queues w1) n) as [qu|] eqn:EQ; [|inversion E2; subst; exact IH].
        apply (reach_step B _ (hand w1 x) (P 0 n)); [exact IH|].
        cbn [pstep]. unfold hand. cbn [p_prods p_queues p_workers p_closed]. rewrite EP. cbn [map nth_error]. cbn [pr_pc pr_items]. rewrite EC, EI. cbn [app p_queues]. rewrite EQ.
        cbn [p_prods p_queues p_workers p_closed]. inversion E2; subst. reflexivity.
      * apply (reach_step B _ (hand w1 x) (P 0 n)); [exact IH|].
        cbn [pstep]. unfold hand. cbn [p_prods p_queues p_workers p_closed]. rewrite EP. cbn [map nth_error]. cbn [pr_pc pr_items]. rewrite EC.
        inversion E2; subst. reflexivity.
      * destruct (nth_error (p_queues w1) q) as [qu|] eqn:EQ; [|discriminate].
        apply (reach_step B _ (hand w1 x) (P 0 n)); [exact IH|].
        cbn [pstep]. unfold hand. cbn [p_prods p_queues p_workers p_closed]. rewrite EP. cbn [map nth_error]. cbn [pr_pc pr_items]. rewrite EC. cbn [p_queues]. rewrite EQ.
        inversion E2; subst. reflexivity.
    + apply (reach_step B _ (hand w1 x) (W n)); [exact IH|].
      cbn [pstep] in E2 |- *. unfold hand. cbn [p_workers p_queues p_closed p_prods].
      destruct (nth_error (p_workers w1) n); [|inversion E2; subst; reflexivity].
      destruct (nth_error (p_queues w1) n); [|discriminate].
      destruct (wstep B (p_closed w1) _ _) as [[? ?]| |]; cbn [bind] in E2 |- *; inversion E2; subst; reflexivity.
    + cbn [pstep] in E2. inversion E2; subst. cbn [p_closed] in C. apply orb_false_iff in C. destruct C as [C1 C2].
      unfold hand. cbn [p_queues p_workers p_prods p_closed]. rewrite C2, orb_false_r. exact IH.
Qed.

Lemma total_one L : total [L] = length L.
Proof. unfold total. cbn. rewrite app_nil_r. reflexivity. Qed.

(** One producer: what is pushed and what is still to be pushed is its list. *)
Lemma one_pushed B L w p : (0 < B)%nat -> reach B [L] w -> p_prods w = [p] -> map snd (pushed w 0) ++ pr_items p = L.
Proof.
  intros BP [s R] EP.
  destruct (reach_inv B 1 1 [L] BP (le_n 1) s w R) as (I & _ & _ & HP).
  destruct (prun_oinv B [L] s _ w (ginv_start B 1 1 BP (le_n 1) [L]) BP (oinv_start B [L]) R) as [_ O].
  specialize (O 0%nat p ltac:(rewrite EP; reflexivity)). cbn [nth] in O.
  assert (EQ : exists q, p_queues w = [q]).
  { pose proof (g_nq _ _ _ _ I). destruct (p_queues w) as [|q [|]]; try discriminate. exists q. reflexivity. }
  destruct EQ as [q EQ]. apply Permutation_length in HP. unfold all_pushed, unpushed in HP. rewrite EQ, EP in HP. cbn in HP.
  rewrite !app_nil_r, app_length, map_length in HP. rewrite <- O. f_equal.
  unfold pushed in *. rewrite EQ in *. cbn [nth_error] in *.
  assert (LB : length (by_producer 0 (q_log q)) = length (q_log q)) by (apply (f_equal (@length Z)) in O; rewrite app_length in O; lia).
  unfold by_producer in *. rewrite map_length in LB. clear - LB.
  induction (q_log q) as [|e l IH]; [reflexivity|]. cbn [filter] in *.
  assert (LF : (length (filter (fun x => (fst x =? 0)%nat) l) <= length l)%nat).
  { clear. induction l as [|y l IH]; cbn; [lia|]. destruct (fst y =? 0)%nat; cbn; lia. }
  destruct (fst e =? 0)%nat; cbn [length map] in *; [|lia]. f_equal. apply IH. lia.
Qed.

Lemma one_queue B progs w : (0 < B)%nat -> reach B progs w ->
  exists q pc, p_queues w = [q] /\ p_workers w = [pc] /\ ginv B 1 1 w.
Proof.
  intros BP [s R]. destruct (reach_inv B 1 1 progs BP (le_n 1) s w R) as (I & _).
  pose proof (g_nq _ _ _ _ I) as H1. pose proof (g_nw _ _ _ _ I) as H2.
  destruct (p_queues w) as [|q [|]]; try discriminate. destruct (p_workers w) as [|pc [|]]; try discriminate.
  exists q, pc. split; [reflexivity|]. split; [reflexivity|exact I].
Qed.

Lemma prod_done B w k n w' : pstep B w (P k n) = Ok w' ->
  (forall m, processed w' m = processed w m) /\ p_workers w' = p_workers w /\ p_closed w' = p_closed w.
Proof.
  intros E. cbn [pstep] in E. destruct (nth_error (p_prods w) k) as [p|]; [|inversion E; subst; repeat split; reflexivity].
  assert (G : forall q qu qu', nth_error (p_queues w) q = Some qu -> q_done qu' = q_done qu ->
            forall m, match nth_error (upd_nth (p_queues w) q qu') m with Some z => q_done z | None => [] end =
                      match nth_error (p_queues w) m with Some z => q_done z | None => [] end).
  { intros q qu qu' EQ ED m. destruct (Nat.eq_dec q m) as [->|N].
    - rewrite upd_same by (eapply nth_lt; exact EQ). rewrite EQ. exact ED.
    - rewrite upd_other by exact N. reflexivity. }
  destruct (pr_pc p).
  - destruct (pr_items p); [inversion E; subst; repeat split; reflexivity|].
    destruct (nth_error (p_queues w) n) eqn:EQ; inversion E; subst; [|repeat split; reflexivity].
    split; [|split; reflexivity]. unfold processed. cbn [p_queues]. eapply G; [exact EQ|reflexivity].
  - inversion E; subst; repeat split; reflexivity.
  - destruct (nth_error (p_queues w) q) eqn:EQ; inversion E; subst.
    split; [|split; reflexivity]. unfold processed. cbn [p_queues]. eapply G; [exact EQ|reflexivity].
Qed.

(** A step of the worker. *)
Lemma work_done B w q pc w' : p_queues w = [q] -> p_workers w = [pc] -> pstep B w (W 0) = Ok w' ->
  exists q' pc', wstep B (p_closed w) q pc = Ok (q', pc') /\ w' = PW [q'] [pc'] (p_prods w) (p_closed w) /\
    match pc with
    | WRead _ => exists v, q_done q' = q_done q ++ [v] /\ pc' = WCall
    | WCall => q' = q /\ pc' = WInner
    | _ => q_done q' = q_done q /\ pc' <> WCall
    end.
Proof.
  intros EQ EW E. cbn [pstep] in E. rewrite EW, EQ in E. cbn [nth_error upd_nth] in E.
  destruct (wstep B (p_closed w) q pc) as [[q' pc']| |] eqn:ES; cbn [bind] in E; try discriminate.
  exists q', pc'. split; [reflexivity|]. split; [inversion E; reflexivity|].
  destruct pc; cbn [wstep] in ES.
  - inversion ES; subst. split; [reflexivity|]. destruct (p_closed w); discriminate.
  - inversion ES; subst. split; [reflexivity|]. destruct (_ =? _)%nat; discriminate.
  - inversion ES; subst. split; [reflexivity|]. destruct (_ <? _)%nat; discriminate.
  - destruct (nth_error _ _) as [[|]|]; inversion ES; subst; (split; [reflexivity|discriminate]).
  - inversion ES; subst. split; [reflexivity|discriminate].
  - destruct (nth_error _ _) as [[v|]|]; inversion ES; subst. exists v. split; reflexivity.
  - inversion ES; subst. split; reflexivity.
  - inversion ES; subst. split; [reflexivity|discriminate].
Qed.

Definition pend (w : pworld) : nat :=
  match p_prods w with
  | p :: _ => 3 * length (pr_items p) + match pr_pc p with PIdle => 0 | PTicket _ _ _ => 2 | PStoring _ _ _ => 1 end
  | [] => 0
  end%nat.
Lemma idle_pend nx : forallb idle (p_prods nx) = true -> pend nx = 0%nat.
Proof.
  unfold pend. destruct (p_prods nx) as [|p l]; [reflexivity|]. cbn [forallb]. intros H.
  apply andb_true_iff in H. destruct H as [H _]. apply idle_true in H. destruct H as [-> ->]. reflexivity.
Qed.
Lemma hand_pend nx x p : p_prods nx = [p] -> pend (hand nx x) = (pend nx + 3)%nat.
Proof. intros E. unfold pend, hand. cbn [p_prods]. rewrite E. cbn [map pr_items pr_pc]. rewrite app_length. cbn [length]. lia. Qed.
Lemma push_pend b nx p q nx' : p_prods nx = [p] -> p_queues nx = [q] -> forallb idle (p_prods nx) = false ->
  pstep b nx (P 0 0) = Ok nx' -> (S (pend nx') <= pend nx)%nat.
Proof.
  intros EP EQ EI E. cbn [pstep] in E. rewrite EP, EQ in E. rewrite EP in EI. cbn [nth_error forallb] in *. unfold idle in EI.
  unfold pend. rewrite EP. destruct (pr_pc p) eqn:EC.
  - destruct (pr_items p) as [|v r]; [discriminate|]. inversion E; subst. cbn [p_prods upd_nth pr_items pr_pc length]. lia.
  - inversion E; subst. cbn [p_prods upd_nth pr_items pr_pc length]. lia.
  - destruct (nth_error [q] q0); inversion E; subst. cbn [p_prods upd_nth pr_items pr_pc length]. lia.
Qed.

Section Inv.
  Variable B : nat -> nat.
  Variable f : nat -> Z -> Z.
  Variable n : nat.
  Variable progs : list (list Z).
  Hypothesis BP : forall m, (0 < B m)%nat.

  Definition prog_of (ws : list pworld) (m : nat) : list (list Z) :=
    match m with
    | O => progs
    | S k => [match nth_error ws k with Some w => map (f k) (processed w 0) | None => [] end]
    end.

  Record jinv (ws : list pworld) : Prop := {
    j_len : length ws = n;
    j_reach : forall m w, nth_error ws m = Some w -> reach (B m) (prog_of ws m) w;
    j_idle : forall k w x, nth_error ws (S k) = Some w -> nth_error ws k = Some x ->
               p_workers x = [WCall] \/ forallb idle (p_prods w) = true;
    j_pend : forall k w, nth_error ws (S k) = Some w -> (pend w <= 3)%nat;
    j_closed : forall k w x, nth_error ws (S k) = Some w -> nth_error ws k = Some x ->
               p_closed w = true -> p_workers x = [WDone]
  }.

  Lemma jinv_start : jinv (jstart B n progs).
  Proof.
    assert (E : forall m w, nth_error (jstart B n progs) m = Some w ->
              w = stage_start (B m) (match m with O => progs | S _ => [[]] end) /\ (m < n)%nat).
    { intros m w H. unfold jstart in H. pose proof (nth_lt _ _ _ H) as L. rewrite map_length, seq_length in L.
      rewrite (map_nth_error _ m (seq 0 n) (d := m)) in H.
      - inversion H. split; [reflexivity|exact L].
      - rewrite nth_error_nth' with (d := 0%nat) by (rewrite seq_length; exact L). rewrite seq_nth by exact L. reflexivity. }
    split.
    - unfold jstart. rewrite map_length, seq_length. reflexivity.
    - intros m w H. destruct (E m w H) as [-> _]. destruct m as [|k]; [exists []; reflexivity|].
      cbn [prog_of]. destruct (nth_error (jstart B n progs) k) as [x|] eqn:EX.
      + destruct (E k x EX) as [-> _]. exists []. unfold processed. destruct k; reflexivity.
      + exists []. reflexivity.
    - intros k w x H _. destruct (E _ _ H) as [-> _]. right. reflexivity.
    - intros k w H. destruct (E _ _ H) as [-> _]. cbn. lia.
    - intros k w x H _ C. destruct (E _ _ H) as [-> _]. discriminate.
  Qed.

  (** Replacing stage [m] by one that has processed the same. *)
  Lemma prog_same ws m w w' j : nth_error ws m = Some w -> processed w' 0 = processed w 0 ->
    prog_of (upd_nth ws m w') j = prog_of ws j.
  Proof.
    intros E H. destruct j as [|k]; [reflexivity|]. cbn [prog_of]. destruct (Nat.eq_dec m k) as [->|N].
    - rewrite upd_same by (eapply nth_lt; exact E). rewrite E, H. reflexivity.
    - rewrite upd_other by exact N. reflexivity.
  Qed.

  Lemma jinv_same ws m w w' : jinv ws -> nth_error ws m = Some w -> reach (B m) (prog_of ws m) w' ->
    processed w' 0 = processed w 0 ->
    (forall nx, nth_error ws (S m) = Some nx -> p_workers w' = [WCall] \/ forallb idle (p_prods nx) = true) ->
    (p_workers w = [WDone] -> p_workers w' = [WDone]) ->
    (forall k x, m = S k -> nth_error ws k = Some x -> p_workers x = [WCall] \/ forallb idle (p_prods w') = true) ->
    (forall k, m = S k -> (pend w' <= 3)%nat) ->
    (forall k x, m = S k -> nth_error ws k = Some x -> p_closed w' = true -> p_workers x = [WDone]) ->
    jinv (upd_nth ws m w').
  Proof.
    intros [J1 J2 J3 JP J4] E R H Hi Hd Hp Hq Hc. split.
    - rewrite upd_len. exact J1.
    - intros j x Ej. rewrite (prog_same ws m w w' j E H). destruct (Nat.eq_dec m j) as [->|N].
      + rewrite upd_same in Ej by (eapply nth_lt; exact E). inversion Ej; subst. exact R.
      + rewrite upd_other in Ej by exact N. apply J2, Ej.
    - intros k x y Ex Ey. destruct (Nat.eq_dec m (S k)) as [->|N].
      + rewrite upd_same in Ex by (eapply nth_lt; exact E). inversion Ex; subst x.
        rewrite upd_other in Ey by lia. eapply Hp; [reflexivity|exact Ey].
      + rewrite upd_other in Ex by exact N. destruct (Nat.eq_dec m k) as [->|N2].
        * rewrite upd_same in Ey by (eapply nth_lt; exact E). inversion Ey; subst y. apply Hi, Ex.
        * rewrite upd_other in Ey by exact N2. eapply J3; eassumption.
    - intros k x Ex. destruct (Nat.eq_dec m (S k)) as [->|N].
      + rewrite upd_same in Ex by (eapply nth_lt; exact E). inversion Ex; subst x. eapply Hq; reflexivity.
      + rewrite upd_other in Ex by exact N. eapply JP, Ex.
    - intros k x y Ex Ey C. destruct (Nat.eq_dec m (S k)) as [->|N].
      + rewrite upd_same in Ex by (eapply nth_lt; exact E). inversion Ex; subst x.
        rewrite upd_other in Ey by lia. eapply Hc; [reflexivity|exact Ey|exact C].
      + rewrite upd_other in Ex by exact N. destruct (Nat.eq_dec m k) as [->|N2].
        * rewrite upd_same in Ey by (eapply nth_lt; exact E). inversion Ey; subst y. apply Hd. eapply J4; eassumption.
        * rewrite upd_other in Ey by exact N2. eapply J4; eassumption.
  Qed.

  Lemma step_ok ws m w a : jinv ws -> nth_error ws m = Some w -> exists w', pstep (B m) w a = Ok w'.
  Proof.
    intros J E. destruct (j_reach ws J m w E) as [s R].
    destruct (reach_inv (B m) 1 1 _ (BP m) (le_n 1) s w R) as (I & _).
    destruct (prun_ok (B m) 1 1 (BP m) (le_n 1) [a] w I) as (w' & E' & _). cbn [prun] in E'.
    destruct (pstep (B m) w a) as [x| |]; cbn [bind] in E'; try discriminate. exists x. reflexivity.
  Qed.

  Lemma ended_closed ws m w : jinv ws -> nth_error ws m = Some w -> ended w = true -> p_closed w = true.
  Proof.
    intros J E H. destruct (one_queue (B m) _ w (BP m) (j_reach ws J m w E)) as (q & pc & EQ & EW & I).
    unfold ended in H. rewrite EW in H. destruct pc; try discriminate.
    pose proof (g_w _ _ _ _ I 0%nat q WDone ltac:(rewrite EQ; reflexivity) ltac:(rewrite EW; reflexivity)) as [C _]. exact C.
  Qed.

  Lemma workers_one ws m w : jinv ws -> nth_error ws m = Some w ->
    exists q pc, p_queues w = [q] /\ p_workers w = [pc] /\ ginv (B m) 1 1 w.
  Proof. intros J E. eapply one_queue; [apply BP|]. exact (j_reach ws J m w E). Qed.

  Lemma prods_one ws k w : jinv ws -> nth_error ws (S k) = Some w -> exists p, p_prods w = [p].
  Proof. intros J E. pose proof (j_reach ws J (S k) w E) as R. cbn [prog_of] in R. eapply one_prod, R. Qed.
  (** Stage [m] makes a step of its own that is not reading an item. *)
  Lemma own_step ws m w q pc w' : jinv ws -> nth_error ws m = Some w -> p_queues w = [q] -> p_workers w = [pc] ->
    pstep (B m) w (W 0) = Ok w' ->
    (forall nx, nth_error ws (S m) = Some nx -> (forall i, pc <> WRead i) /\ forallb idle (p_prods nx) = true) ->
    jinv (upd_nth ws m w').
  Proof.
    intros J E EQ EW ES HN. destruct (work_done (B m) w q pc w' EQ EW ES) as (q' & pc' & EV & -> & D).
    destruct (nth_error ws (S m)) as [nx|] eqn:EN.
    - destruct (HN nx eq_refl) as [NR HI].
      assert (DD : q_done q' = q_done q) by (destruct pc; try (destruct D; subst; assumption || reflexivity); destruct (NR _ eq_refl)).
      apply (jinv_same ws m w); try assumption.
      + eapply reach_step; [exact (j_reach ws J m w E)|exact ES].
      + unfold processed. cbn [p_queues]. rewrite EQ. exact DD.
      + intros nx' EN'. assert (nx' = nx) as -> by congruence. right. exact HI.
      + intros HD. assert (pc = WDone) as -> by congruence. cbn [wstep] in EV. inversion EV; subst. reflexivity.
      + intros k x -> Ex. cbn [p_prods]. exact (j_idle ws J k w x E Ex).
      + intros k ->. exact (j_pend ws J k w E).
      + intros k x -> Ex C. cbn [p_closed] in C. exact (j_closed ws J k w x E Ex C).
    - (* last stage: nobody follows *)
      assert (LM : S m = length ws).
      { apply nth_error_None in EN. pose proof (nth_lt _ _ _ E). lia. }
      destruct J as [J1 J2 J3 JP J4]. split.
      + rewrite upd_len. exact J1.
      + intros j x Ej. assert (EP : prog_of (upd_nth ws m (PW [q'] [pc'] (p_prods w) (p_closed w))) j = prog_of ws j).
        { destruct j as [|k]; [reflexivity|]. cbn [prog_of]. apply nth_lt in Ej. rewrite upd_len in Ej.
          rewrite upd_other by lia. reflexivity. }
        rewrite EP. destruct (Nat.eq_dec m j) as [->|N].
        * rewrite upd_same in Ej by (eapply nth_lt; exact E). inversion Ej; subst x.
          eapply reach_step; [exact (J2 j w E)|exact ES].
        * rewrite upd_other in Ej by exact N. apply J2, Ej.
      + intros k x y Ex Ey. pose proof (nth_lt _ _ _ Ex) as LX. rewrite upd_len in LX.
        rewrite upd_other in Ey by lia. destruct (Nat.eq_dec m (S k)) as [->|N].
        * rewrite upd_same in Ex by lia. inversion Ex; subst x. cbn [p_prods]. eapply J3; eassumption.
        * rewrite upd_other in Ex by exact N. eapply J3; eassumption.
      + intros k x Ex. destruct (Nat.eq_dec m (S k)) as [->|N].
        * rewrite upd_same in Ex by (eapply nth_lt; exact E). inversion Ex; subst x. exact (JP k w E).
        * rewrite upd_other in Ex by exact N. eapply JP, Ex.
      + intros k x y Ex Ey C. pose proof (nth_lt _ _ _ Ex) as LX. rewrite upd_len in LX.
        rewrite upd_other in Ey by lia. destruct (Nat.eq_dec m (S k)) as [->|N].
        * rewrite upd_same in Ex by lia. inversion Ex; subst x. cbn [p_closed] in C. eapply J4; eassumption.
        * rewrite upd_other in Ex by exact N. eapply J4; eassumption.
  Qed.

  Lemma hand_idle nx x : p_prods nx <> [] -> forallb idle (p_prods nx) = true -> forallb idle (p_prods (hand nx x)) = false.
  Proof.
    cbn [hand p_prods]. destruct (p_prods nx) as [|p l]; [congruence|]. intros _ _. cbn [map forallb].
    unfold idle at 1. cbn [pr_items]. destruct (pr_items p); reflexivity.
  Qed.

  (** Stage [m] reads an item and hands it on. *)
  Lemma read_step ws m w q i nx w' : jinv ws -> nth_error ws m = Some w -> p_queues w = [q] -> p_workers w = [WRead i] ->
    nth_error ws (S m) = Some nx -> pstep (B m) w (W 0) = Ok w' ->
    jinv (upd_nth (upd_nth ws m w') (S m) (hand nx (f m (last_item w')))).
  Proof.
    intros J E EQ EW EN ES. destruct (work_done (B m) w q _ w' EQ EW ES) as (q' & pc' & EV & -> & v & ED & ->).
    assert (LV : last_item (PW [q'] [WCall] (p_prods w) (p_closed w)) = v).
    { unfold last_item. cbn [p_queues]. rewrite ED. apply last_last. }
    rewrite LV. clear LV.
    set (w' := PW [q'] [WCall] (p_prods w) (p_closed w)) in *.
    assert (LM : (m < length ws)%nat) by (eapply nth_lt; exact E).
    assert (LN : (S m < length ws)%nat) by (eapply nth_lt; exact EN).
    assert (CN : p_closed nx = false).
    { destruct (p_closed nx) eqn:C; [|reflexivity]. pose proof (j_closed ws J m nx w EN E C). congruence. }
    assert (GET : forall j, nth_error (upd_nth (upd_nth ws m w') (S m) (hand nx (f m v))) j =
              if (j =? m)%nat then Some w' else if (j =? S m)%nat then Some (hand nx (f m v)) else nth_error ws j).
    { intros j. destruct (Nat.eqb_spec j m) as [->|N1].
      - rewrite upd_other by lia. apply upd_same, LM.
      - destruct (Nat.eqb_spec j (S m)) as [->|N2].
        + apply upd_same. rewrite upd_len. exact LN.
        + rewrite !upd_other by lia. reflexivity. }
    set (ws' := upd_nth (upd_nth ws m w') (S m) (hand nx (f m v))) in *.
    destruct (prods_one ws m nx J EN) as [p EPn].
    assert (IN : forallb idle (p_prods nx) = true) by (destruct (j_idle ws J m nx w EN E) as [H|H]; [congruence|exact H]).
    destruct J as [J1 J2 J3 JP J4]. split.
    - unfold ws'. rewrite !upd_len. exact J1.
    - intros j x Ej. rewrite GET in Ej. destruct (Nat.eqb_spec j m) as [->|N1].
      + inversion Ej; subst x. assert (EP : prog_of ws' m = prog_of ws m).
        { destruct m as [|k]; [reflexivity|]. cbn [prog_of]. rewrite GET. 
          destruct (Nat.eqb_spec k (S k)); [lia|]. destruct (Nat.eqb_spec k (S (S k))); [lia|]. reflexivity. }
        rewrite EP. eapply reach_step; [exact (J2 m w E)|exact ES].
      + destruct (Nat.eqb_spec j (S m)) as [->|N2].
        * inversion Ej; subst x. cbn [prog_of]. rewrite GET, Nat.eqb_refl. unfold processed. cbn [w' p_queues nth_error]. rewrite ED, map_app.
          cbn [map]. apply reach_hand; [|exact CN]. pose proof (J2 (S m) nx EN) as R. cbn [prog_of] in R. rewrite E in R.
          unfold processed in R. rewrite EQ in R. exact R.
        * assert (EP : prog_of ws' j = prog_of ws j).
          { destruct j as [|k]; [reflexivity|]. cbn [prog_of]. rewrite GET. destruct (Nat.eqb_spec k m); [lia|].
            destruct (Nat.eqb_spec k (S m)) as [->|N3]; [|reflexivity]. rewrite EN. reflexivity. }
          rewrite EP. apply J2, Ej.
    - intros k x y Ex Ey. rewrite GET in Ex, Ey.
      destruct (Nat.eqb_spec k m) as [->|N1].
      + inversion Ey; subst y. left. reflexivity.
      + destruct (Nat.eqb_spec (S k) m) as [<-|N2].
        * inversion Ex; subst x. destruct (Nat.eqb_spec k (S (S k))); [lia|]. cbn [w' p_prods]. exact (J3 k w y E Ey).
        * destruct (Nat.eqb_spec (S k) (S m)); [lia|]. destruct (Nat.eqb_spec k (S m)) as [->|N3].
          -- inversion Ey; subst y. cbn [hand p_workers]. exact (J3 (S m) x nx Ex EN).
          -- exact (J3 k x y Ex Ey).
    - intros k x Ex. rewrite GET in Ex. destruct (Nat.eqb_spec (S k) m) as [<-|N1].
      + inversion Ex; subst x. exact (JP k w E).
      + destruct (Nat.eqb_spec (S k) (S m)) as [_|N2]; [|eapply JP, Ex].
        inversion Ex; subst x. rewrite (hand_pend nx _ p EPn), (idle_pend nx IN). lia.
    - intros k x y Ex Ey C. rewrite GET in Ex, Ey.
      destruct (Nat.eqb_spec k m) as [->|N1].
      + destruct (Nat.eqb_spec (S m) m); [lia|]. rewrite Nat.eqb_refl in Ex. inversion Ex; subst x. cbn [hand p_closed] in C. congruence.
      + destruct (Nat.eqb_spec (S k) m) as [<-|N2].
        * inversion Ex; subst x. destruct (Nat.eqb_spec k (S (S k))); [lia|]. cbn [w' p_closed] in C. exact (J4 k w y E Ey C).
        * destruct (Nat.eqb_spec (S k) (S m)); [lia|]. destruct (Nat.eqb_spec k (S m)) as [->|N3].
          -- inversion Ey; subst y. cbn [hand p_workers]. exact (J4 (S m) x nx Ex EN C).
          -- exact (J4 k x y Ex Ey C).
  Qed.

  Lemma jstep_inv ws a : jinv ws -> in_order ws a -> exists ws', jstep B f ws a = Ok ws' /\ jinv ws'.
  Proof.
    intros J O. destruct a as [k|m|m]; cbn [jstep].
    - destruct ws as [|w rest]; [exists []; split; [reflexivity|exact J]|].
      destruct (step_ok (w :: rest) 0 w (P k 0) J eq_refl) as [w' ES]. rewrite ES. cbn [bind].
      exists (w' :: rest). split; [reflexivity|]. change (w' :: rest) with (upd_nth (w :: rest) 0 w').
      destruct (prod_done (B 0) w k 0 w' ES) as (D1 & D2 & D3).
      apply (jinv_same (w :: rest) 0 w); try assumption; try reflexivity.
      + eapply reach_step; [exact (j_reach _ J 0%nat w eq_refl)|exact ES].
      + apply D1.
      + intros nx EN. rewrite D2. eapply (j_idle _ J); [exact EN|reflexivity].
      + intros H. rewrite D2. exact H.
      + intros k0 x H. discriminate.
      + intros k0 H. discriminate.
      + intros k0 x H. discriminate.
    - destruct (nth_error ws m) as [w|] eqn:E; [|exists ws; split; [reflexivity|exact J]].
      destruct (workers_one ws m w J E) as (q & pc & EQ & EW & I). rewrite EW.
      destruct (step_ok ws m w (W 0) J E) as [w' ES].
      destruct (nth_error ws (S m)) as [nx|] eqn:EN.
      2:{ exists (upd_nth ws m w'). rewrite ES. split; [destruct pc; reflexivity|].
          eapply own_step; try eassumption. intros nx EN'. congruence. }
      assert (IDLE : pc <> WCall -> forallb idle (p_prods nx) = true).
      { intros N. destruct (j_idle ws J m nx w EN E) as [H|H]; [|exact H]. congruence. }
      destruct pc as [| | | | |i| |];
        try (exists (upd_nth ws m w'); rewrite ES; split; [reflexivity|]; eapply own_step; try eassumption;
             intros nx' EN'; assert (nx' = nx) as -> by congruence; split; [congruence|apply IDLE; discriminate]).
      + rewrite ES. cbn [bind]. eexists. split; [reflexivity|]. eapply read_step; eassumption.
      + destruct (forallb idle (p_prods nx)) eqn:EI.
        * exists (upd_nth ws m w'). rewrite ES. split; [reflexivity|]. eapply own_step; try eassumption.
          intros nx' EN'. assert (nx' = nx) as -> by congruence. split; [congruence|exact EI].
        * destruct (ended nx) eqn:EE.
          { pose proof (j_closed ws J m nx w EN E (ended_closed ws (S m) nx J EN EE)). congruence. }
          destruct (step_ok ws (S m) nx (P 0 0) J EN) as [nx' EX]. rewrite EX. cbn [bind].
          eexists. split; [reflexivity|]. destruct (prod_done (B (S m)) nx 0 0 nx' EX) as (D1 & D2 & D3).
          apply (jinv_same ws (S m) nx); try assumption.
          -- eapply reach_step; [exact (j_reach _ J _ nx EN)|exact EX].
          -- apply D1.
          -- intros ny EY. rewrite D2. eapply (j_idle _ J); eassumption.
          -- rewrite D2. tauto.
          -- intros k x Hk Ex. left. assert (k = m) as -> by lia. congruence.
          -- intros k _. destruct (prods_one ws m nx J EN) as [p EP].
             destruct (workers_one ws (S m) nx J EN) as (qn & pcn & EQn & _).
             pose proof (push_pend _ nx p qn nx' EP EQn EI EX). pose proof (j_pend ws J m nx EN). lia.
          -- intros k x Hk Ex C. assert (k = m) as -> by lia. rewrite D3 in C. eapply (j_closed _ J); eassumption.
    - destruct (nth_error ws m) as [w|] eqn:E; [|exists ws; split; [reflexivity|exact J]].
      assert (CL : forall w', pstep (B m) w Close = Ok w' -> (forall k x, m = S k -> nth_error ws k = Some x -> p_workers x = [WDone]) ->
                jinv (upd_nth ws m w')).
      { intros w' ES HO. pose proof ES as ES'. cbn [pstep] in ES'. inversion ES' as [EW']. 
        apply (jinv_same ws m w); try assumption; rewrite EW'.
        - eapply reach_step; [exact (j_reach _ J m w E)|exact ES].
        - rewrite <- EW'. reflexivity.
        - intros nx EN. rewrite <- EW'. cbn [p_workers]. eapply (j_idle _ J); eassumption.
        - rewrite <- EW'. tauto.
        - intros k x -> Ex. rewrite <- EW'. cbn [p_prods]. eapply (j_idle _ J); eassumption.
        - intros k ->. rewrite <- EW'. exact (j_pend ws J k w E).
        - intros k x -> Ex _. eapply HO; [reflexivity|exact Ex]. }
      destruct m as [|k].
      + cbn [Nat.eqb]. destruct (step_ok ws 0 w Close J E) as [w' ES]. rewrite ES. cbn [bind].
        eexists. split; [reflexivity|]. apply CL; [exact ES|]. intros k x H. discriminate.
      + cbn [Nat.eqb]. eexists. split; [reflexivity|].
        assert (HO : forall k0 x, S k = S k0 -> nth_error ws k0 = Some x -> p_workers x = [WDone]).
        { intros k0 x H Ex. assert (k0 = k) as -> by lia. cbn [in_order] in O. specialize (O x Ex).
          destruct (workers_one ws k x J Ex) as (q & pc & _ & EW & _). rewrite EW. rewrite (O pc); [reflexivity|]. rewrite EW. left. reflexivity. }
        apply CL; [|exact HO]. cbn [pstep]. do 2 f_equal.
        assert (LK : (k < length ws)%nat) by (pose proof (nth_lt _ _ _ E); lia).
        destruct (nth_error ws k) as [x|] eqn:Ex; [|apply nth_error_None in Ex; lia].
        destruct (j_idle ws J k w x E Ex) as [H|H]; [rewrite (HO k x eq_refl Ex) in H; discriminate|].
        rewrite H. apply orb_true_r.
  Qed.

  Lemma jrun_inv s : forall ws, jinv ws -> front_to_back B f ws s -> exists ws', jrun B f ws s = Ok ws' /\ jinv ws'.
  Proof.
    induction s as [|a s IH]; intros ws J F; cbn [jrun].
    - exists ws. split; [reflexivity|exact J].
    - destruct F as [F1 F2]. destruct (jstep_inv ws a J F1) as (ws1 & E & J1). rewrite E. cbn [bind].
      apply IH; [exact J1|]. apply F2, E.
  Qed.

  (** ** termination *)
  Definition jrank (ws : list pworld) (m : nat) : nat :=
    (4 * match nth_error ws m with Some w => wrank_of w 0 | None => 0 end +
     match nth_error ws (S m) with Some nx => pend nx | None => 0 end)%nat.
  Definition jclosed (ws : list pworld) (m : nat) : Prop := exists w, nth_error ws m = Some w /\ p_closed w = true.

  Lemma rank_of_one w q pc : p_queues w = [q] -> p_workers w = [pc] -> wrank_of w 0 = wrank q pc.
  Proof. intros EQ EW. unfold wrank_of. rewrite EQ, EW. reflexivity. Qed.

  Definition is_work (m : nat) (a : jagent) : nat := match a with Work k => if (k =? m)%nat then 1%nat else 0%nat | _ => 0%nat end.

  Lemma jstep_rank ws a ws' m : jinv ws -> jclosed ws m -> jstep B f ws a = Ok ws' ->
    (jrank ws' m <= jrank ws m - is_work m a)%nat /\ jclosed ws' m.
  Proof.
    intros J [c [EM CM]] E. pose proof (nth_lt _ _ _ EM) as LMm.
    destruct a as [k|j|j]; cbn [jstep is_work] in *.
    - destruct ws as [|w rest]; [inversion E; subst; split; [lia|exists c; tauto]|].
      destruct (pstep (B 0) w (P k 0)) as [w'| |] eqn:ES; cbn [bind] in E; inversion E; subst ws'. clear E.
      destruct m as [|m].
      + inversion EM; subst c. destruct (workers_one (w :: rest) 0 w J eq_refl) as (q & pc & EQ & EW & I).
        rewrite (closed_prod_noop (B 0%nat) 1 1 w k 0 w' I CM ES). split; [lia|]. exists w. split; [reflexivity|exact CM].
      + split; [unfold jrank; cbn [nth_error]; lia|]. exists c. split; [exact EM|exact CM].
    - destruct (nth_error ws j) as [w|] eqn:EJ.
      2:{ inversion E; subst. destruct (Nat.eqb_spec j m) as [->|N]; [congruence|]. split; [lia|exists c; tauto]. }
      destruct (workers_one ws j w J EJ) as (q & pc & EQ & EW & I). rewrite EW in E.
      pose proof (nth_lt _ _ _ EJ) as LJ.
      (* an own step of stage j *)
      assert (OWN : forall w', pstep (B j) w (W 0) = Ok w' ->
                (forall nx, nth_error ws (S j) = Some nx -> forallb idle (p_prods nx) = true) ->
                (jrank (upd_nth ws j w') m <= jrank ws m - (if (j =? m)%nat then 1 else 0))%nat /\ jclosed (upd_nth ws j w') m).
      { intros w' ES HI. destruct (work_done (B j) w q pc w' EQ EW ES) as (q' & pc' & EV & EW' & D).
        split.
        - unfold jrank. destruct (Nat.eqb_spec j m) as [->|N].
          + rewrite upd_same by exact LJ. rewrite upd_other by lia. rewrite EJ.
            assert (c = w) as -> by congruence.
            assert (HR : (wrank_of w' 0 < wrank_of w 0)%nat \/ (pc = WDone /\ w' = w)).
            { rewrite (rank_of_one w q pc EQ EW). rewrite EW'. rewrite (rank_of_one (PW [q'] [pc'] (p_prods w) (p_closed w)) q' pc' eq_refl eq_refl).
              destruct (wstep_rank (B m) 1 1 (BP m) (le_n 1) w 0 q pc q' pc' I CM) as [H|(-> & -> & ->)]; try assumption.
              - rewrite EQ. reflexivity.
              - rewrite EW. reflexivity.
              - left. exact H.
              - right. split; [reflexivity|]. destruct w; cbn in *. subst. reflexivity. }
            destruct HR as [HR|[-> ->]]; [lia|].
            rewrite (rank_of_one w q WDone EQ EW). cbn [wrank].
            destruct (nth_error ws (S m)) as [nx|] eqn:EN; [|lia]. rewrite (idle_pend nx (HI nx eq_refl)). lia.
          + rewrite upd_other by exact N.
            destruct (Nat.eq_dec j (S m)) as [->|N2].
            * rewrite upd_same by exact LJ. rewrite EJ, EW'. unfold pend. cbn [p_prods]. lia.
            * rewrite upd_other by exact N2. lia.
        - destruct (Nat.eq_dec j m) as [->|N].
          + exists w'. rewrite upd_same by exact LJ. split; [reflexivity|]. rewrite EW'. cbn [p_closed]. congruence.
          + exists c. rewrite upd_other by exact N. tauto. }
      destruct (nth_error ws (S j)) as [nx|] eqn:EN.
      2:{ assert (E' : bind (pstep (B j) w (W 0)) (fun w' => Ok (upd_nth ws j w')) = Ok ws') by (destruct pc; exact E).
          destruct (pstep (B j) w (W 0)) as [w'| |] eqn:ES; cbn [bind] in E'; inversion E'; subst ws'. apply OWN; [reflexivity|discriminate]. }
      assert (IDLE : pc <> WCall -> forallb idle (p_prods nx) = true).
      { intros N. destruct (j_idle ws J j nx w EN EJ) as [H|H]; [congruence|exact H]. }
      pose proof (nth_lt _ _ _ EN) as LNX. destruct (prods_one ws j nx J EN) as [p EP].
      destruct (workers_one ws (S j) nx J EN) as (qn & pcn & EQn & EWn & In).
      destruct pc as [| | | | |i| |];
        try (destruct (pstep (B j) w (W 0)) as [w'| |] eqn:ES; cbn [bind] in E; inversion E; subst ws'; apply OWN;
             [reflexivity|intros ny EY; assert (ny = nx) as -> by congruence; apply IDLE; discriminate]).
      + (* read *)
        destruct (pstep (B j) w (W 0)) as [w'| |] eqn:ES; cbn [bind] in E; inversion E; subst ws'. clear E.
        destruct (work_done (B j) w q _ w' EQ EW ES) as (q' & pc' & EV & EW' & v & ED & ->).
        assert (NC : S j <> m).
        { intros <-. assert (c = nx) as -> by congruence. pose proof (j_closed ws J j nx w EN EJ CM). congruence. }
        split.
        * unfold jrank. destruct (Nat.eqb_spec j m) as [->|N].
          -- rewrite (upd_other (upd_nth ws m w')) by lia. rewrite upd_same by exact LJ. rewrite upd_same by (rewrite upd_len; exact LNX).
             rewrite EJ, EN, (hand_pend nx _ p EP). rewrite (idle_pend nx (IDLE ltac:(discriminate))).
             assert (c = w) as -> by congruence.
             destruct (wstep_rank (B m) 1 1 (BP m) (le_n 1) w 0 q (WRead i) q' WCall I CM) as [H|(H & _)]; try assumption; try discriminate.
             { rewrite EQ. reflexivity. } { rewrite EW. reflexivity. }
             rewrite (rank_of_one w q _ EQ EW). rewrite EW'. rewrite (rank_of_one (PW [q'] [WCall] (p_prods w) (p_closed w)) q' WCall eq_refl eq_refl). lia.
          -- rewrite (upd_other (upd_nth ws j w')) by lia. rewrite upd_other by exact N.
             rewrite (upd_other (upd_nth ws j w') (S j) (S m)) by lia.
             destruct (Nat.eq_dec j (S m)) as [->|N2].
             ++ rewrite upd_same by exact LJ. rewrite EJ, EW'. unfold pend. cbn [p_prods]. lia.
             ++ rewrite upd_other by exact N2. lia.
        * destruct (Nat.eq_dec j m) as [->|N].
          -- exists w'. rewrite upd_other by lia. rewrite upd_same by exact LJ. split; [reflexivity|]. rewrite EW'. cbn [p_closed]. congruence.
          -- exists c. rewrite !upd_other by lia. tauto.
      + (* in func_ *)
        destruct (forallb idle (p_prods nx)) eqn:EI.
        * destruct (pstep (B j) w (W 0)) as [w'| |] eqn:ES; cbn [bind] in E; inversion E; subst ws'. apply OWN; [reflexivity|].
          intros ny EY. assert (ny = nx) as -> by congruence. exact EI.
        * destruct (ended nx); [discriminate|].
          destruct (pstep (B (S j)) nx (P 0 0)) as [nx'| |] eqn:ES; cbn [bind] in E; inversion E; subst ws'. clear E.
          pose proof (push_pend _ nx p qn nx' EP EQn EI ES) as HP.
          assert (NC : S j <> m).
          { intros <-. assert (c = nx) as -> by congruence. pose proof (j_closed ws J j nx w EN EJ CM). congruence. }
          split.
          -- unfold jrank. rewrite (upd_other ws (S j) m) by exact NC. destruct (Nat.eqb_spec j m) as [->|N].
             ++ rewrite upd_same by exact LNX. rewrite EN. lia.
             ++ rewrite upd_other by lia. lia.
          -- exists c. rewrite upd_other by exact NC. tauto.
    - destruct (nth_error ws j) as [w|] eqn:EJ; [|inversion E; subst; split; [lia|exists c; tauto]].
      pose proof (nth_lt _ _ _ EJ) as LJ.
      assert (G : forall c', ws' = upd_nth ws j (PW (p_queues w) (p_workers w) (p_prods w) c') -> (p_closed w = true -> c' = true) ->
                (jrank ws' m <= jrank ws m - 0)%nat /\ jclosed ws' m).
      { intros c' -> HC. split.
        - unfold jrank. destruct (Nat.eq_dec j m) as [->|N].
          + rewrite upd_same by exact LJ. rewrite upd_other by lia. rewrite EJ. unfold wrank_of. cbn [p_queues p_workers]. lia.
          + rewrite upd_other by exact N. destruct (Nat.eq_dec j (S m)) as [->|N2].
            * rewrite upd_same by exact LJ. rewrite EJ. unfold pend. cbn [p_prods]. lia.
            * rewrite upd_other by exact N2. lia.
        - destruct (Nat.eq_dec j m) as [->|N].
          + eexists. rewrite upd_same by exact LJ. split; [reflexivity|]. cbn [p_closed]. apply HC. congruence.
          + exists c. rewrite upd_other by exact N. tauto. }
      destruct (j =? 0)%nat eqn:E0.
      + cbn [pstep bind] in E. apply Nat.eqb_eq in E0. subst j. injection E as E. apply (G (p_closed w || forallb idle (p_prods w))); [symmetry; exact E|]. intros ->. reflexivity.
      + injection E as E. apply (G true); [symmetry; exact E|reflexivity].
  Qed.

  Lemma jrun_rank s : forall ws ws' m, jinv ws -> front_to_back B f ws s -> jclosed ws m -> jrun B f ws s = Ok ws' ->
    (jrank ws' m <= jrank ws m - work_of m s)%nat /\ jinv ws'.
  Proof.
    induction s as [|a s IH]; intros ws ws' m J F C E; cbn [jrun] in E.
    - inversion E; subst. split; [cbn; lia|exact J].
    - destruct F as [F1 F2]. destruct (jstep_inv ws a J F1) as (ws1 & E1 & J1). rewrite E1 in E. cbn [bind] in E.
      destruct (jstep_rank ws a ws1 m J C E1) as [H1 C1].
      destruct (IH ws1 ws' m J1 (F2 ws1 E1) C1 E) as [H2 J2]. split; [|exact J2].
      assert (HS : work_of m (a :: s) = (is_work m a + work_of m s)%nat).
      { unfold work_of, is_work. cbn [filter]. destruct a; try reflexivity. destruct (m0 =? m)%nat; reflexivity. }
      lia.
  Qed.

  Lemma stage_ends ws s ws' m w w' : jinv ws -> front_to_back B f ws s -> jrun B f ws s = Ok ws' ->
    nth_error ws m = Some w -> p_closed w = true -> (20 * waiting w 0 + 23 <= work_of m s)%nat ->
    nth_error ws' m = Some w' -> all_done w'.
  Proof.
    intros J F E EM C L EM'. destruct (jrun_rank s ws ws' m J F (ex_intro _ w (conj EM C)) E) as [H J'].
    destruct (workers_one ws' m w' J' EM') as (q' & pc' & EQ' & EW' & I').
    assert (HJ : (jrank ws m <= 20 * waiting w 0 + 23)%nat).
    { unfold jrank. rewrite EM. pose proof (rank_le (B m) 1 1 (BP m) (le_n 1) w 0) as HR.
      destruct (nth_error ws (S m)) as [nx|] eqn:EN; [|lia]. pose proof (j_pend ws J m nx EN). lia. }
    assert (HJ0 : jrank ws' m = 0%nat) by lia.
    assert (HZ : wrank_of w' 0 = 0%nat) by (unfold jrank in HJ0; rewrite EM' in HJ0; lia).
    intros pc Hin. rewrite EW' in Hin. destruct Hin as [<-|[]].
    eapply (rank_zero (B m) 1 1 (BP m) (le_n 1) w' 0); [exact I'|rewrite EW'; reflexivity|exact HZ].
  Qed.

  (** What has been processed by stage [m]. *)
  Hypothesis CAP : forall m, (m < n)%nat -> (total progs <= B m)%nat.

  Lemma processed_prefix ws : jinv ws -> forall m w, nth_error ws m = Some w ->
    (exists rest, map (through f m) (accepted ws) = processed w 0 ++ rest) /\
    (length (accepted ws) <= total progs)%nat.
  Proof.
    intros J. assert (A0 : forall w, nth_error ws 0 = Some w -> accepted ws = map snd (pushed w 0)).
    { intros w E. destruct ws; [discriminate|]. inversion E; subst. reflexivity. }
    assert (LT : forall m w, nth_error ws m = Some w -> (m < n)%nat) by (intros m w E; rewrite <- (j_len _ J); eapply nth_lt; exact E).
    induction m as [|m IH]; intros w E.
    - rewrite (A0 w E). destruct (j_reach ws J 0%nat w E) as [s R]. cbn [prog_of] in R.
      destruct (one_queue (B 0) progs w (BP 0%nat) (ex_intro _ s R)) as (q & pc & EQ & EW & I).
      destruct (reach_inv (B 0%nat) 1 1 progs (BP 0%nat) (le_n 1) s w R) as (_ & _ & _ & HP).
      assert (E0 : nth_error (p_queues w) 0 = Some q) by (rewrite EQ; reflexivity).
      pose proof (log_le_total progs w 0 q HP E0) as LL. pose proof (CAP 0%nat (LT _ _ E)).
      unfold pushed, processed. rewrite E0. rewrite map_length. split; [|exact LL].
      change (map (through f 0)) with (map (fun x : Z => x)). rewrite map_id.
      exists (skipn (length (q_done q)) (map snd (q_log q))).
      apply (bounded_prefix (B 0%nat) 1 1 progs (BP 0%nat) (le_n 1) s w R 0 q E0). lia.
    - destruct (nth_error ws m) as [x|] eqn:Ex; [|apply nth_error_None in Ex; pose proof (nth_lt _ _ _ E); lia].
      destruct (IH x eq_refl) as [[rest HR] LA]. split; [|exact LA].
      pose proof (j_reach ws J (S m) w E) as R. cbn [prog_of] in R. rewrite Ex in R.
      destruct (one_prod _ _ _ R) as [p EP]. pose proof (one_pushed _ _ w p (BP _) R EP) as HL.
      destruct R as [s R]. set (L := map (f m) (processed x 0)) in *.
      destruct (one_queue (B (S m)) [L] w (BP _) (ex_intro _ s R)) as (q & pc & EQ & EW & I).
      assert (E0 : nth_error (p_queues w) 0 = Some q) by (rewrite EQ; reflexivity).
      assert (LL : (length (q_log q) <= B (S m))%nat).
      { pose proof (f_equal (@length Z) HL) as HL'. unfold pushed in HL'. rewrite E0, app_length, map_length in HL'.
        unfold L in HL'. rewrite map_length in HL'. apply (f_equal (@length Z)) in HR. rewrite map_length, app_length in HR.
        pose proof (CAP (S m) (LT _ _ E)). lia. }
      pose proof (bounded_prefix (B (S m)) 1 1 [L] (BP _) (le_n 1) s w R 0 q E0 LL) as HB.
      unfold pushed in HL. rewrite E0 in HL. unfold processed at 1. rewrite E0.
      change (map (through f (S m)) (accepted ws)) with (map (fun y => f m (through f m y)) (accepted ws)).
      rewrite <- (map_map (through f m) (f m)), HR, map_app. fold L. rewrite <- HL, HB, <- !app_assoc. eexists. reflexivity.
  Qed.

  Lemma all_ended ws : jinv ws -> (forall w, In w ws -> all_done w) -> forall m w, nth_error ws m = Some w ->
    processed w 0 = map (through f m) (accepted ws) /\ Permutation (accepted ws) (concat progs).
  Proof.
    intros J D. assert (A0 : forall w, nth_error ws 0 = Some w -> accepted ws = map snd (pushed w 0)).
    { intros w E. destruct ws; [discriminate|]. inversion E; subst. reflexivity. }
    induction m as [|m IH]; intros w E.
    - destruct (processed_prefix ws J 0%nat w E) as [[rest HR] LA].
      rewrite (A0 w E) in *. destruct (j_reach ws J 0%nat w E) as [s R]. cbn [prog_of] in R.
      destruct (one_queue (B 0) progs w (BP 0%nat) (ex_intro _ s R)) as (q & pc & EQ & EW & I).
      assert (E0 : nth_error (p_queues w) 0 = Some q) by (rewrite EQ; reflexivity).
      destruct (done_all_pushed (B 0%nat) 1 1 progs (BP 0%nat) (le_n 1) s w R 0 q ltac:(lia) (D w (nth_error_In _ _ E)) E0) as [C LD].
      destruct (reach_inv (B 0%nat) 1 1 progs (BP 0%nat) (le_n 1) s w R) as (_ & _ & _ & HP).
      unfold pushed, processed in *. rewrite E0 in *. change (map (through f 0)) with (map (fun x : Z => x)) in *. rewrite map_id in *.
      assert (rest = []) as ->.
      { apply (f_equal (@length Z)) in HR. rewrite app_length, map_length in HR. destruct rest; [reflexivity|cbn in HR; lia]. }
      rewrite app_nil_r in HR. split; [symmetry; exact HR|].
      unfold pinv in HP. rewrite (closed_unpushed (B 0%nat) 1 1 progs (BP 0%nat) (le_n 1) s w R C), app_nil_r in HP.
      unfold all_pushed in HP. rewrite EQ in HP. cbn in HP. rewrite app_nil_r in HP. exact HP.
    - destruct (nth_error ws m) as [x|] eqn:Ex; [|apply nth_error_None in Ex; pose proof (nth_lt _ _ _ E); lia].
      destruct (IH x eq_refl) as [HX HPm]. split; [|exact HPm].
      destruct (processed_prefix ws J (S m) w E) as [[rest HR] _].
      pose proof (j_reach ws J (S m) w E) as R. cbn [prog_of] in R. rewrite Ex in R.
      destruct (one_prod _ _ _ R) as [p EP]. pose proof (one_pushed _ _ w p (BP _) R EP) as HL.
      destruct R as [s R]. set (L := map (f m) (processed x 0)) in *.
      destruct (one_queue (B (S m)) [L] w (BP _) (ex_intro _ s R)) as (q & pc & EQ & EW & I).
      assert (E0 : nth_error (p_queues w) 0 = Some q) by (rewrite EQ; reflexivity).
      destruct (done_all_pushed (B (S m)) 1 1 [L] (BP _) (le_n 1) s w R 0 q ltac:(lia) (D w (nth_error_In _ _ E)) E0) as [C LD].
      pose proof (g_closed _ _ _ _ I C p ltac:(rewrite EP; left; reflexivity)) as HI. apply idle_true in HI. destruct HI as [HI _].
      rewrite HI, app_nil_r in HL. unfold pushed in HL. rewrite E0 in HL.
      assert (LR : rest = []).
      { apply (f_equal (@length Z)) in HR. rewrite app_length, map_length in HR. unfold processed in HR. rewrite E0 in HR.
        apply (f_equal (@length Z)) in HL. rewrite map_length in HL. unfold L in HL. rewrite map_length, HX, map_length in HL.
        destruct rest; [reflexivity|cbn in HR; lia]. }
      subst rest. rewrite app_nil_r in HR. symmetry. exact HR.
  Qed.
End Inv.

Lemma early_destroy B f v : (0 < B 0)%nat ->
  jrun B f (jstart B 2 [[v]])
    ([Destroy 1; Work 1; Work 1; Outside 0; Outside 0; Outside 0] ++ repeat (Work 0) 6) = UB.
Proof.
  intros HB. destruct (B 0%nat) as [|b] eqn:EB; [lia|].
  assert (M : (0 mod S b = 0)%nat) by (apply Nat.mod_0_l; lia).
  unfold jstart, stage_start, pstart, fresh_queue. rewrite <- EB in M. cbn -[Nat.modulo]. rewrite EB in *.
  cbn -[Nat.modulo]. unfold store, take_ticket. cbn -[Nat.modulo]. repeat (rewrite M; cbn -[Nat.modulo]).
  reflexivity.
Qed.
