(** Networks of stages and pools: destructors return. *)
From Verif Require Export FlowProofs3.

Section Flow.
  Variable nodes : list kind.
  Variable B : nat -> nat.
  Variable func : list fev -> nat -> Z -> list (nat * Z).
  Hypothesis BP : forall m, (0 < B m)%nat.
  Variable progs : nat -> list (nat * Z).
  Notation kind_of := (kind_of nodes).
  Notation gone := (gone nodes).
  Notation fstep := (fstep nodes B func).
  Notation frun := (frun nodes B func).
  Notation finv := (finv nodes B progs).
  Notation aimed := (aimed nodes func).

  Variables (m n K : nat).
  Hypothesis IN : inside nodes m n.
  Hypothesis NF : ~ feeds func m m.
  Hypothesis KB : forall log v, (length (func log m v) <= K)%nat.

  Lemma no_target w src : aimed w -> f_closed w m = true -> active nodes w src ->
    (exists v, In (m, v) (s_items (f_send w src))) \/ (exists q i v, holds (f_send w src) m q i v) -> False.
  Proof.
    intros (A1 & A2 & A3 & A4 & A5) C AC T. destruct (A1 m C) as [Q1 Q2].
    destruct src as [k|a b].
    - specialize (Q2 k). destruct Q2 as [Q2 Q3]. destruct T as [(v & HI)|(q & i & v & H)].
      + assert (HV : In v (for_node m (s_items (f_send w (Outsider k))))).
        { unfold for_node. apply in_map_iff. exists (m, v). split; [reflexivity|]. apply filter_In. split; [exact HI|apply Nat.eqb_refl]. }
        rewrite Q2 in HV. destruct HV.
      + destruct H as [H|H]; rewrite H in Q3; congruence.
    - destruct AC as [(IA & IB & IC) EP].
      assert (F : feeds func a m) by (destruct T as [(v & HI)|(q & i & v & H)]; [eapply A3, HI|eapply A4, H]).
      destruct (Nat.eq_dec a m) as [->|N]; [contradiction|].
      destruct (gone_spec nodes w a IA (Q1 a IA N F)) as [_ D]. rewrite D in EP by exact IB. discriminate.
  Qed.
  (** Workers that do not exist do nothing. *)
  Definition strays (w : fworld) : Prop := forall a b, ~ inside nodes a b -> f_pc w a b = WOuter.
  Lemma strays_move w w' : strays w -> move nodes B func w w' -> strays w'.
  Proof using nodes B func. clear BP progs m n K IN NF KB.
    intros ST M a b NI. specialize (ST a b NI).
    destruct M; cbn [fnote put_pc put_queue put_send f_pc]; auto;
      match goal with |- set2 (f_pc w) ?x ?y ?z a b = _ => destruct (set2_get (f_pc w) x y z a b) as [(-> & -> & E)|[N E]] end;
      rewrite E; [contradiction|exact ST| contradiction|exact ST|contradiction|exact ST].
  Qed.
  (** Every place given away is filled. *)
  Lemma all_filled w i : finv w -> aimed w -> strays w -> f_closed w m = true -> (i < fq_tail (f_queue w m n))%nat ->
    filled (fq_slots (f_queue w m n)) (i mod B m).
  Proof.
    intros I A ST C L. destruct (i_fill _ _ _ _ I m n i L) as [F|(src & v & H)]; [exact F|exfalso].
    destruct src as [k|a b]; [apply (no_target w (Outsider k) A C Logic.I); right; eauto|].
    destruct (f_pc w a b) eqn:EP; try (rewrite (i_rest _ _ _ _ I a b) in H by (rewrite EP; discriminate); destruct H; discriminate).
    apply (no_target w (Worker a b) A C); [|right; eauto]. split; [|exact EP].
    assert (DEC : inside nodes a b \/ ~ inside nodes a b).
    { unfold inside. destruct (Nat.lt_ge_cases a (length nodes)), (Nat.lt_ge_cases b (workers_of (kind_of a))),
        (Nat.lt_ge_cases b (queues_of (kind_of a))); try (left; tauto); right; lia. }
    destruct DEC as [D|D]; [exact D|]. rewrite (ST a b D) in EP. discriminate.
  Qed.

  Definition cost : nat := 5 + 3 * K.
  Definition left_in (w : fworld) : nat := fq_tail (f_queue w m n) - fq_head (f_queue w m n).
  Definition push_cost (x : sender) : nat :=
    3 * length (s_items x) + match s_pc x with SIdle => 0 | STicket _ _ _ _ => 2 | SStoring _ _ _ _ => 1 end.
  Definition rank (w : fworld) : nat :=
    let h := left_in w in
    match f_pc w m n with
    | WOuter => if (h =? 0)%nat then 2 else 5 + h * cost
    | WOuter2 => if (h =? 0)%nat then 1 else 4 + h * cost
    | WInner => 3 + h * cost
    | WCheck => 2 + h * cost
    | WTake => 1 + h * cost
    | WRead _ => cost + h * cost
    | WCall => 4 + push_cost (f_send w (Worker m n)) + h * cost
    | WDone => 0
    end%nat.
  Lemma rank_same w w' : f_pc w' m n = f_pc w m n -> left_in w' = left_in w ->
    f_send w' (Worker m n) = f_send w (Worker m n) -> rank w' = rank w.
  Proof. intros E1 E2 E3. unfold rank. rewrite E1, E2, E3. reflexivity. Qed.
  Definition mine (a : fagent) : bool :=
    match a with FWork x y _ => (x =? m)%nat && (y =? n)%nat | _ => false end.

  (** A push, which cannot be into this node. *)
  Lemma push_other w src q w' : aimed w -> f_closed w m = true -> active nodes w src -> push_step nodes B w src q = Ok w' ->
    f_pc w' m n = f_pc w m n /\ left_in w' = left_in w /\
    (src <> Worker m n -> f_send w' (Worker m n) = f_send w (Worker m n)) /\
    (idle_sender (f_send w src) = false -> (push_cost (f_send w' src) < push_cost (f_send w src))%nat).
  Proof.
    intros A C AC. pose proof (no_target w src A C AC) as NT. unfold push_step, holds in *.
    destruct (f_send w src) as [its pc] eqn:ES. cbn [s_items s_pc] in *.
    destruct pc as [|a j i v|a j i v].
    - destruct its as [|[a v] rest]; [intros H; injection H as <-; rewrite ES; repeat split; discriminate|].
      destruct (gone w a); [discriminate|]. intros H. injection H as <-.
      assert (NA : a <> m) by (intros ->; apply NT; left; exists v; left; reflexivity).
      unfold left_in. cbn [fnote put_send put_queue f_pc f_queue f_send]. rewrite set2_other by (intros []; congruence).
      repeat split.
      + intros N. destruct (source_eq (Worker m n) src); [congruence|reflexivity].
      + intros _. destruct (source_eq src src); [|congruence]. unfold push_cost. cbn [s_items s_pc length]. lia.
    - destruct (gone w a); [discriminate|]. intros H. injection H as <-.
      unfold left_in. cbn [put_send f_pc f_queue f_send]. repeat split.
      + intros N. destruct (source_eq (Worker m n) src); [congruence|reflexivity].
      + intros _. destruct (source_eq src src); [|congruence]. unfold push_cost. cbn [s_items s_pc length]. lia.
    - destruct (gone w a); [discriminate|]. intros H. injection H as <-.
      assert (NA : a <> m) by (intros ->; apply NT; right; exists j, i, v; right; reflexivity).
      unfold left_in. cbn [put_send put_queue f_pc f_queue f_send]. rewrite set2_other by (intros []; congruence).
      repeat split.
      + intros N. destruct (source_eq (Worker m n) src); [congruence|reflexivity].
      + intros _. destruct (source_eq src src); [|congruence]. unfold push_cost. cbn [s_items s_pc length]. lia.
  Qed.

  Lemma rank_step w a w' : finv w -> aimed w -> strays w -> f_closed w m = true -> fstep w a = Ok w' ->
    (rank w' <= rank w - (if mine a then 1 else 0))%nat.
  Proof.
    intros I A ST C. destruct a as [k q|x y q|x]; cbn [FlowModel.fstep mine].
    - intros H. destruct (push_other w (Outsider k) q w' A C Logic.I H) as (E1 & E2 & E3 & _).
      rewrite (rank_same w w' E1 E2 (E3 ltac:(discriminate))). lia.
    - destruct (Nat.ltb_spec x (length nodes)) as [H1|H1]; cbn [andb].
      2:{ intros H. injection H as <-. destruct (pair_case x m y n true false) as [(-> & -> & _)|[_ E]]; [destruct IN; lia|].
          destruct ((x =? m)%nat && (y =? n)%nat); [discriminate|lia]. }
      destruct (Nat.ltb_spec y (workers_of (kind_of x))) as [H2|H2].
      2:{ intros H. injection H as <-. destruct (pair_case x m y n true false) as [(-> & -> & _)|[_ E]]; [destruct IN as (? & ? & ?); lia|].
          destruct ((x =? m)%nat && (y =? n)%nat); [discriminate|lia]. }
      destruct (Nat.ltb_spec y (queues_of (kind_of x))) as [H3|H3]; [|discriminate].
      assert (INX : inside nodes x y) by (split; [|split]; assumption).
      destruct ((x =? m)%nat && (y =? n)%nat) eqn:EM.
      + apply andb2 in EM. destruct EM as [-> ->].
        pose proof (all_filled w (fq_head (f_queue w m n)) I A ST C) as FL.
        pose proof (i_head _ _ _ _ I m n) as HL.
        unfold work_step. cbv zeta. unfold rank at 2, left_in at 1 2 3 4 5 6 7 8. 
        destruct (f_pc w m n) as [ | | | | |i| | ] eqn:EP.
        * rewrite C. intros H. injection H as <-. unfold rank, left_in. cbn [put_pc f_pc f_queue]. rewrite set2_same.
          destruct (Nat.eqb_spec (fq_tail (f_queue w m n) - fq_head (f_queue w m n)) 0); lia.
        * intros H. injection H as <-. unfold rank, left_in. cbn [put_pc f_pc f_queue]. rewrite set2_same.
          destruct (Nat.eqb_spec (fq_tail (f_queue w m n)) (fq_head (f_queue w m n))) as [E|E].
          -- rewrite E, Nat.sub_diag. cbn [Nat.eqb]. lia.
          -- destruct (Nat.eqb_spec (fq_tail (f_queue w m n) - fq_head (f_queue w m n)) 0); [lia|]. lia.
        * intros H. injection H as <-. unfold rank, left_in. cbn [put_pc f_pc f_queue]. rewrite set2_same.
          destruct (Nat.ltb_spec (fq_head (f_queue w m n)) (fq_tail (f_queue w m n))) as [E|E]; [lia|].
          replace (fq_tail (f_queue w m n) - fq_head (f_queue w m n))%nat with 0%nat by lia. cbn [Nat.eqb]. lia.
        * pose proof (i_work _ _ _ _ I m n) as G. unfold FlowProofs1.wgood' in G. rewrite EP in G.
          destruct FL as (v & EV); [lia|]. rewrite EV. intros H. injection H as <-.
          unfold rank, left_in. cbn [put_pc f_pc f_queue]. rewrite set2_same. lia.
        * pose proof (i_work _ _ _ _ I m n) as G. unfold FlowProofs1.wgood' in G. rewrite EP in G.
          intros H. injection H as <-. unfold rank, left_in. cbn [put_pc put_queue f_pc f_queue]. rewrite !set2_same. cbn [fq_tail fq_head].
          assert (L : (fq_head (f_queue w m n) < fq_tail (f_queue w m n))%nat) by tauto.
          replace (fq_tail (f_queue w m n) - fq_head (f_queue w m n))%nat with (S (fq_tail (f_queue w m n) - S (fq_head (f_queue w m n))))%nat by lia.
          cbn [Nat.mul]. lia.
        * destruct (nth_error _ _) as [[v|]|] eqn:E; [|discriminate|discriminate]. intros H. injection H as <-.
          unfold rank, left_in. cbn [fnote put_send put_pc put_queue f_pc f_queue f_send]. rewrite set2_same.
          destruct (source_eq (Worker m n) (Worker m n)); [|congruence]. unfold push_cost. cbn [s_items s_pc].
          pose proof (KB (f_log w) v). unfold cost. lia.
        * destruct (idle_sender _) eqn:EI.
          -- intros H. injection H as <-. unfold rank, left_in. cbn [put_pc f_pc f_queue]. rewrite set2_same. lia.
          -- intros H. destruct (push_other w (Worker m n) q w' A C (conj INX EP) H) as (E1 & E2 & _ & E4).
             specialize (E4 EI). unfold rank. rewrite E1, E2, EP. unfold left_in. lia.
        * intros H. injection H as <-. unfold rank. rewrite EP. lia.
      + assert (N : ~ (m = x /\ n = y)).
        { intros [<- <-]. rewrite !Nat.eqb_refl in EM. discriminate. }
        intros H. enough (E : f_pc w' m n = f_pc w m n /\ left_in w' = left_in w /\ f_send w' (Worker m n) = f_send w (Worker m n)).
        { destruct E as (E1 & E2 & E3). rewrite (rank_same w w' E1 E2 E3). lia. }
        revert H. unfold work_step. cbv zeta. destruct (f_pc w x y) as [ | | | | |i| | ] eqn:EP;
          try (intros H; injection H as <-; unfold left_in; cbn [fnote put_send put_pc put_queue f_pc f_queue f_send];
               rewrite ?set2_other by exact N; repeat split; fail).
        * destruct (nth_error _ _) as [[v|]|] eqn:E; [| |discriminate]; intros H; injection H as <-; unfold left_in;
            cbn [put_pc f_pc f_queue f_send]; rewrite set2_other by exact N; repeat split.
        * destruct (nth_error _ _) as [[v|]|] eqn:E; [|discriminate|discriminate]. intros H; injection H as <-; unfold left_in;
            cbn [fnote put_send put_pc f_pc f_queue f_send]; rewrite set2_other by exact N.
          destruct (source_eq (Worker m n) (Worker x y)) as [EQ|]; [injection EQ as -> ->; tauto|repeat split].
        * destruct (idle_sender _) eqn:EI.
          -- intros H; injection H as <-; unfold left_in; cbn [put_pc f_pc f_queue f_send]; rewrite set2_other by exact N; repeat split.
          -- intros H. destruct (push_other w (Worker x y) q w' A C (conj INX EP) H) as (E1 & E2 & E3 & _).
             split; [exact E1|split; [exact E2|apply E3]]. intros EQ. injection EQ as -> ->. tauto.
    - intros H. injection H as <-. unfold rank, left_in. cbn [f_pc f_queue f_send]. lia.
  Qed.

  Lemma rank_run s : (forall log a v, within nodes (func log a v)) -> forall w w', finv w -> aimed w -> strays w -> f_closed w m = true ->
    feeders_first nodes B func w s -> frun w s = Ok w' -> (rank w' <= rank w - turns m n s)%nat.
  Proof.
    intros WF. induction s as [|a s IH]; intros w w' I A ST C FF; cbn [FlowModel.frun].
    - intros H. injection H as <-. cbn. lia.
    - destruct FF as [TN FF]. destruct (fstep w a) as [w1| |] eqn:E; cbn [bind]; [|discriminate|discriminate]. intros R.
      pose proof (rank_step w a w1 I A ST C E) as R1.
      pose proof (step_moves nodes B func w a w1 E) as MV.
      assert (R2 : (rank w' <= rank w1 - turns m n s)%nat).
      { apply IH; [eapply step_inv; eassumption|eapply aimed_step; eassumption|eapply strays_move; eassumption|
          eapply closed_stays'; eassumption|apply FF; reflexivity|exact R]. }
      unfold turns in *. cbn [filter]. fold (mine a). destruct (mine a); cbn [length] in *; lia.
  Qed.
  Lemma rank_zero w : rank w = 0%nat -> f_pc w m n = WDone.
  Proof.
    unfold rank. destruct (f_pc w m n); try reflexivity; try (destruct (left_in w =? 0)%nat); unfold cost; lia.
  Qed.
  (** What a worker has still to push came from one call. *)
  Definition short (w : fworld) : Prop := (push_cost (f_send w (Worker m n)) <= 3 * K)%nat.
  Lemma short_move w w' : move nodes B func w w' -> short w -> short w'.
  Proof.
    unfold short. intros M SH.
    destruct M; cbn [fnote put_pc put_queue put_send f_send]; auto;
      destruct (source_eq (Worker m n) _) as [EQ|]; auto; try subst src.
    - rewrite H0 in SH. unfold push_cost in *. cbn [s_items s_pc length] in *. lia.
    - unfold push_cost in *. rewrite H0 in SH. cbn [s_items s_pc] in *. lia.
    - unfold push_cost in *. rewrite H0 in SH. cbn [s_items s_pc] in *. lia.
    - injection EQ as <- <-. unfold push_cost. cbn [s_items s_pc]. pose proof (KB (f_log w) v). lia.
  Qed.
  Lemma rank_bound w : finv w -> short w -> (rank w <= (pending w m n + 1) * cost)%nat.
  Proof.
    intros I SH. pose proof (i_work _ _ _ _ I m n) as G. pose proof (i_tail _ _ _ _ I m n) as T.
    assert (L : (left_in w <= pending w m n)%nat).
    { unfold left_in, pending. rewrite T. unfold FlowProofs1.wgood' in G. cbv zeta in G.
      destruct (f_pc w m n); try lia. }
    assert (L2 : (left_in w * cost <= pending w m n * cost)%nat) by (apply Nat.mul_le_mono_r, L).
    rewrite Nat.mul_add_distr_r. unfold rank. unfold short in SH.
    destruct (f_pc w m n); try (destruct (left_in w =? 0)%nat); unfold cost in *; lia.
  Qed.

  Lemma ends s w s' w' : (forall log a v, within nodes (func log a v)) -> (forall k, within nodes (progs k)) ->
    feeders_first nodes B func (fstart B progs) (s ++ s') -> frun (fstart B progs) s = Ok w -> frun w s' = Ok w' ->
    f_closed w m = true -> ((pending w m n + 1) * cost <= turns m n s')%nat -> f_pc w' m n = WDone.
  Proof.
    intros WF WP FF R R' C T.
    assert (I : finv w) by (eapply run_inv; [exact BP|apply (finv_start nodes B func)|exact R]).
    assert (P : feeders_first nodes B func (fstart B progs) s /\ feeders_first nodes B func w s').
    { clear - FF R. revert FF R. generalize (fstart B progs) as x. induction s as [|a s IH]; intros x FF R; cbn [app FlowModel.frun feeders_first] in *.
      - injection R as <-. split; [exact Logic.I|exact FF].
      - destruct FF as [TN FF]. destruct (fstep x a) as [x1| |] eqn:E; cbn [bind] in R; [|discriminate|discriminate].
        destruct (IH x1 (FF x1 eq_refl) R) as [P1 P2]. split; [split; [exact TN|]|exact P2]. intros y EY. injection EY as <-. exact P1. }
    destruct P as [P1 P2].
    assert (A : aimed w) by (eapply run_aimed; [exact WF|apply aimed_start, WP|exact P1|exact R]).
    assert (Q : strays w /\ short w).
    { assert (Q0 : strays (fstart B progs) /\ short (fstart B progs)) by (split; [intros ? ? _; reflexivity|unfold short; cbn; lia]).
      clear - BP progs IN NF KB Q0 R. revert Q0 R. generalize (fstart B progs) as x. induction s as [|a s IH]; intros x Q0 R; cbn [FlowModel.frun] in *.
      - injection R as <-. exact Q0.
      - destruct (fstep x a) as [x1| |] eqn:E; cbn [bind] in R; [|discriminate|discriminate].
        apply (IH x1); [|exact R]. apply step_moves in E. destruct Q0. split; [eapply strays_move|eapply short_move]; eassumption. }
    destruct Q as [Q1 Q2]. apply rank_zero.
    pose proof (rank_run s' WF w w' I A Q1 C P2 R'). pose proof (rank_bound w I Q2). lia.
  Qed.
End Flow.
