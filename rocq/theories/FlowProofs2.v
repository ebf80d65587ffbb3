(** Networks of stages and pools: every move keeps the invariant; no undefined behaviour. *)
From Verif Require Export FlowProofs1.

Section Flow.
  Variable nodes : list kind.
  Variable B : nat -> nat.
  Variable func : list fev -> nat -> Z -> list (nat * Z).
  Hypothesis BP : forall m, (0 < B m)%nat.
  Variable progs : nat -> list (nat * Z).
  Notation kind_of := (kind_of nodes).
  Notation gone := (gone nodes).
  Notation fstep := (fstep nodes B func).
  Notation frun := (frun nodes B func).
  Notation move := (move nodes B func).
  Notation finv := (finv nodes B progs).
  Notation wgood' := (wgood' B).

  Lemma inv_pc w m n pc : finv w -> inside nodes m n -> next_pc B w m n pc -> finv (put_pc w m n pc).
  Proof.
    intros I IN NP. destruct I as [I1 I2 I3 I4 I5 I6 I7 I8 I9].
    split; cbn [put_pc f_queue f_pc f_send f_log]; auto.
    - intros a b. pose proof (I4 a b) as G. destruct (set2_get (f_pc w) m n pc a b) as [(-> & -> & E)|[N E]];
        unfold FlowProofs1.wgood' in *; cbn [put_pc f_queue f_pc f_log]; rewrite E; [|exact G].
      unfold next_pc in NP. destruct (f_pc w m n) as [ | | | | |i| | ].
      + subst pc. destruct (f_closed w m); exact G.
      + destruct NP as [[_ ->]|[_ ->]]; exact G.
      + destruct NP as [[L ->]|[_ ->]]; [split; [exact G|exact L]|exact G].
      + destruct NP as [[_ ->]|[F ->]]; [apply G|]. destruct G as [G1 G2]. split; [exact G1|]. split; [exact G2|exact F].
      + destruct NP.
      + destruct NP.
      + destruct NP as [_ ->]. exact G.
      + destruct NP.
    - intros a b NC. destruct (set2_get (f_pc w) m n pc a b) as [(-> & -> & E)|[N E]]; rewrite E in NC; [|apply I6, NC].
      destruct (f_pc w m n) as [ | | | | |i| | ] eqn:EP; unfold next_pc in NP; rewrite EP in NP; try (apply I6; rewrite EP; discriminate).
      destruct NP as [H _]. unfold idle_sender in H. destruct (f_send w (Worker m n)) as [its p]. cbn [s_items s_pc] in H.
      destruct its; [|discriminate]. destruct p; try discriminate. reflexivity.
  Qed.
  Lemma inv_take w m n : finv w -> inside nodes m n -> f_pc w m n = WTake ->
    finv (put_pc (put_queue w m n (FQ (fq_slots (f_queue w m n)) (fq_tail (f_queue w m n)) (S (fq_head (f_queue w m n))))) m n
                     (WRead (fq_head (f_queue w m n)))).
  Proof.
    intros I IN EP. destruct I as [I1 I2 I3 I4 I5 I6 I7 I8 I9]. pose proof (I4 m n) as G. unfold FlowProofs1.wgood' in G. rewrite EP in G.
    destruct G as (G1 & G2 & G3).
    split; cbn [put_pc put_queue f_queue f_pc f_send f_log]; auto.
    - intros a b. destruct (set2_get (f_queue w) m n (FQ (fq_slots (f_queue w m n)) (fq_tail (f_queue w m n)) (S (fq_head (f_queue w m n)))) a b)
        as [(-> & -> & E)|[N E]]; rewrite E; [apply I1|apply I1].
    - intros a b. destruct (set2_get (f_queue w) m n (FQ (fq_slots (f_queue w m n)) (fq_tail (f_queue w m n)) (S (fq_head (f_queue w m n)))) a b)
        as [(-> & -> & E)|[N E]]; rewrite E; [apply I2|apply I2].
    - intros a b. destruct (set2_get (f_queue w) m n (FQ (fq_slots (f_queue w m n)) (fq_tail (f_queue w m n)) (S (fq_head (f_queue w m n)))) a b)
        as [(-> & -> & E)|[N E]]; rewrite E; [cbn [fq_head fq_tail]; lia|apply I3].
    - intros a b. destruct (Nat.eq_dec a m) as [->|NE]; [destruct (Nat.eq_dec b n) as [->|NE]|].
      + unfold FlowProofs1.wgood'. cbn [put_pc put_queue f_queue f_pc f_log]. rewrite !set2_same. cbn [fq_head fq_slots].
        split; [lia|]. split; [exact G1|exact G3].
      + eapply (wgood_keep B func); [| | | | |exact (I4 m b)]; cbn [put_pc put_queue f_queue f_pc f_log];
          rewrite ?set2_other by (intros [_ ?]; auto); auto.
      + eapply (wgood_keep B func); [| | | | |exact (I4 a b)]; cbn [put_pc put_queue f_queue f_pc f_log];
          rewrite ?set2_other by (intros [? _]; auto); auto.
    - intros a b NC. destruct (set2_get (f_pc w) m n (WRead (fq_head (f_queue w m n))) a b) as [(-> & -> & E)|[N E]]; rewrite E in NC.
      + apply I6. rewrite EP. discriminate.
      + apply I6, NC.
    - intros a b i. destruct (set2_get (f_queue w) m n (FQ (fq_slots (f_queue w m n)) (fq_tail (f_queue w m n)) (S (fq_head (f_queue w m n)))) a b)
        as [(-> & -> & E)|[N E]]; rewrite E; apply I8.
  Qed.
  Lemma inv_call w m n i v : finv w -> inside nodes m n -> f_pc w m n = WRead i ->
    finv (fnote (put_send (put_pc w m n WCall) (Worker m n) (Sender (func (f_log w) m v) SIdle)) (FCall m n v (func (f_log w) m v))).
  Proof.
    intros I IN EP. destruct I as [I1 I2 I3 I4 I5 I6 I7 I8 I9].
    pose proof (I6 m n ltac:(rewrite EP; discriminate)) as ID.
    set (out := func (f_log w) m v).
    assert (QE : forall a b, in_queue a b (f_log w ++ [FCall m n v out]) = in_queue a b (f_log w))
      by (intros; rewrite in_queue_snoc; apply app_nil_r).
    split; cbn [fnote put_pc put_send f_queue f_pc f_send f_log].
    - auto.
    - intros a b. rewrite QE. apply I2.
    - auto.
    - intros a b. pose proof (I4 a b) as G. unfold FlowProofs1.wgood' in *. cbn [fnote put_pc put_send f_queue f_pc f_send f_log].
      rewrite called_by_snoc. destruct (pair_case m a n b [v] []) as [(-> & -> & E)|[N E]]; rewrite E.
      + rewrite set2_same. rewrite EP in G. rewrite app_length. cbn [length]. lia.
      + rewrite app_nil_r. rewrite set2_other by (intros [-> ->]; apply N; auto). exact G.
    - intros src. rewrite sent_by_snoc, app_nil_r. destruct (source_eq src (Worker m n)) as [->|NE].
      + cbn [given s_items]. rewrite outs_of_snoc, !Nat.eqb_refl. cbn [andb].
        pose proof (I5 (Worker m n)) as S5. rewrite ID in S5. cbn [given s_items] in S5. rewrite app_nil_r in S5. rewrite S5. reflexivity.
      + rewrite <- I5. destruct src as [k|a b]; [reflexivity|]. cbn [given]. rewrite outs_of_snoc.
        destruct (pair_case m a n b out []) as [(-> & -> & E)|[N E]]; [congruence|]. rewrite E, app_nil_r. reflexivity.
    - intros a b NC. destruct (source_eq (Worker a b) (Worker m n)) as [E|NE].
      + injection E as -> ->. rewrite set2_same in NC. congruence.
      + apply I6. rewrite set2_other in NC by (intros [-> ->]; auto). exact NC.
    - intros src a q j x H. rewrite QE. destruct (source_eq src (Worker m n)) as [->|NE]; [destruct H; discriminate|]. eapply I7, H.
    - intros a q j L. destruct (I8 a q j L) as [F|(src & x & H)]; [left; exact F|right]. exists src, x.
      destruct (source_eq src (Worker m n)) as [->|NE]; [|exact H]. rewrite ID in H. destruct H; discriminate.
    - intros e HE. apply in_app_iff in HE. destruct HE as [HE|[<-|[]]]; [apply I9, HE|exact IN].
  Qed.
  Lemma inv_begin w src m j i v : finv w -> active nodes w src -> s_pc (f_send w src) = STicket m j i v ->
    finv (put_send w src (Sender (s_items (f_send w src)) (SStoring m j i v))).
  Proof.
    intros I A EP. destruct I as [I1 I2 I3 I4 I5 I6 I7 I8 I9].
    split; cbn [put_send f_queue f_pc f_send f_log]; auto.
    - intros s. destruct (source_eq s src) as [->|NE]; [cbn [s_items]|]; apply I5.
    - intros a b NC. destruct (source_eq (Worker a b) src) as [<-|NE]; [|apply I6, NC]. destruct A as [_ A]. congruence.
    - intros s a q k x H. destruct (source_eq s src) as [->|NE]; [|eapply I7, H].
      destruct H as [H|H]; cbn [s_pc] in H; [discriminate|]. injection H as <- <- <- <-. eapply I7. left. exact EP.
    - intros a q k L. destruct (I8 a q k L) as [F|(s & x & H)]; [left; exact F|right]. exists s, x.
      destruct (source_eq s src) as [->|NE]; [|exact H].
      destruct H as [H|H]; rewrite EP in H; [injection H as <- <- <- <-; right; reflexivity|discriminate].
  Qed.
  Lemma inv_store w src m j i v : finv w -> active nodes w src -> s_pc (f_send w src) = SStoring m j i v ->
    finv (put_send (put_queue w m j (FQ (upd_nth (fq_slots (f_queue w m j)) (i mod B m)%nat (Some v))
                                            (fq_tail (f_queue w m j)) (fq_head (f_queue w m j)))) src
                       (Sender (s_items (f_send w src)) SIdle)).
  Proof.
    intros I A EP. destruct I as [I1 I2 I3 I4 I5 I6 I7 I8 I9].
    set (nq := FQ (upd_nth (fq_slots (f_queue w m j)) (i mod B m)%nat (Some v)) (fq_tail (f_queue w m j)) (fq_head (f_queue w m j))).
    split; cbn [put_send put_queue f_queue f_pc f_send f_log]; auto.
    - intros a b. destruct (set2_get (f_queue w) m j nq a b) as [(-> & -> & E)|[N E]]; rewrite E; [|apply I1].
      cbn [nq fq_slots]. rewrite upd_len. apply I1.
    - intros a b. destruct (set2_get (f_queue w) m j nq a b) as [(-> & -> & E)|[N E]]; rewrite E; apply I2.
    - intros a b. destruct (set2_get (f_queue w) m j nq a b) as [(-> & -> & E)|[N E]]; rewrite E; apply I3.
    - intros a b. eapply (wgood_keep B func); [| | | | |exact (I4 a b)]; cbn [put_send put_queue f_queue f_pc f_send f_log]; try reflexivity;
        destruct (set2_get (f_queue w) m j nq a b) as [(-> & -> & E)|[N E]]; rewrite E; auto.
      intros k F. apply filled_upd, F.
    - intros s. destruct (source_eq s src) as [->|NE]; [cbn [s_items]|]; apply I5.
    - intros a b NC. destruct (source_eq (Worker a b) src) as [<-|NE]; [|apply I6, NC]. destruct A as [_ A]. congruence.
    - intros s a q k x H. destruct (source_eq s src) as [->|NE]; [destruct H; discriminate|]. eapply I7, H.
    - intros a q k L.
      assert (L' : (k < fq_tail (f_queue w a q))%nat).
      { destruct (set2_get (f_queue w) m j nq a q) as [(-> & -> & E)|[N E]]; rewrite E in L; exact L. }
      destruct (I8 a q k L') as [F|(s & x & H)].
      + left. destruct (set2_get (f_queue w) m j nq a q) as [(-> & -> & E)|[N E]]; rewrite E; [|exact F]. apply filled_upd, F.
      + destruct (source_eq s src) as [->|NE].
        * left. destruct H as [H|H]; rewrite EP in H; [discriminate|]. injection H as <- <- <- <-. rewrite set2_same. cbn [nq fq_slots].
          exists v. apply upd_same. rewrite I1. apply Nat.mod_upper_bound. pose proof (BP m). lia.
        * right. exists s, x. destruct (source_eq s src); [contradiction|exact H].
  Qed.
  Lemma inv_ticket w src m v rest j : finv w -> active nodes w src -> f_send w src = Sender ((m, v) :: rest) SIdle ->
    (m < length nodes)%nat -> (j < queues_of (kind_of m))%nat ->
    finv (fnote (put_send (put_queue w m j (FQ (fq_slots (f_queue w m j)) (S (fq_tail (f_queue w m j))) (fq_head (f_queue w m j)))) src
                              (Sender rest (STicket m j (fq_tail (f_queue w m j)) v))) (FPush src m j v)).
  Proof.
    intros I A ES LM LJ. destruct I as [I1 I2 I3 I4 I5 I6 I7 I8 I9].
    set (nq := FQ (fq_slots (f_queue w m j)) (S (fq_tail (f_queue w m j))) (fq_head (f_queue w m j))).
    split; cbn [fnote put_send put_queue f_queue f_pc f_send f_log].
    - intros a b. destruct (set2_get (f_queue w) m j nq a b) as [(-> & -> & E)|[N E]]; rewrite E; apply I1.
    - intros a b. rewrite in_queue_snoc. destruct (set2_get (f_queue w) m j nq a b) as [(-> & -> & E)|[N E]]; rewrite E.
      + rewrite !Nat.eqb_refl. cbn [andb nq fq_tail]. rewrite app_length, <- I2. cbn [length]. lia.
      + destruct (pair_case m a j b [v] []) as [(-> & -> & _)|[_ ->]]; [exfalso; apply N; auto|]. rewrite app_nil_r. apply I2.
    - intros a b. destruct (set2_get (f_queue w) m j nq a b) as [(-> & -> & E)|[N E]]; rewrite E; [|apply I3].
      cbn [nq fq_head fq_tail]. pose proof (I3 m j). lia.
    - intros a b. eapply (wgood_keep B func); [| | | | |exact (I4 a b)]; cbn [fnote put_send put_queue f_queue f_pc f_send f_log]; try reflexivity.
      + rewrite called_by_snoc. apply app_nil_r.
      + destruct (set2_get (f_queue w) m j nq a b) as [(-> & -> & E)|[N E]]; rewrite E; reflexivity.
      + destruct (set2_get (f_queue w) m j nq a b) as [(-> & -> & E)|[N E]]; rewrite E; [cbn [nq fq_tail]; lia|lia].
      + destruct (set2_get (f_queue w) m j nq a b) as [(-> & -> & E)|[N E]]; rewrite E; auto.
    - intros s. rewrite sent_by_snoc. assert (GE : given progs s (f_log w ++ [FPush src m j v]) = given progs s (f_log w)).
      { destruct s as [k|a b]; [reflexivity|]. cbn [given]. rewrite outs_of_snoc. apply app_nil_r. }
      rewrite GE, I5. destruct (source_eq s src) as [->|NE].
      + rewrite ES. cbn [s_items]. destruct (source_eq src src); [|congruence]. rewrite <- app_assoc. reflexivity.
      + destruct (source_eq src s); [congruence|]. rewrite app_nil_r. reflexivity.
    - intros a b NC. destruct (source_eq (Worker a b) src) as [<-|NE]; [|apply I6, NC]. destruct A as [_ A]. congruence.
    - intros s a q k x H. rewrite in_queue_snoc. destruct (source_eq s src) as [->|NE].
      + destruct H as [H|H]; [|discriminate]. cbn [s_pc] in H. injection H as <- <- <- <-. rewrite !Nat.eqb_refl. cbn [andb].
        rewrite nth_error_app2, I2, Nat.sub_diag by (rewrite I2; lia). reflexivity.
      + pose proof (I7 s a q k x H) as HN. rewrite nth_error_app1; [exact HN|]. apply nth_lt in HN. exact HN.
    - intros a q k L. destruct (set2_get (f_queue w) m j nq a q) as [(-> & -> & E)|[N E]]; rewrite E in L |- *.
      + cbn [nq fq_tail fq_slots] in *. destruct (Nat.eq_dec k (fq_tail (f_queue w m j))) as [->|NK].
        * right. exists src, v. destruct (source_eq src src); [|congruence]. left. reflexivity.
        * destruct (I8 m j k ltac:(lia)) as [F|(s & x & H)]; [left; exact F|right]. exists s, x.
          destruct (source_eq s src) as [->|NE]; [|exact H]. rewrite ES in H. destruct H; discriminate.
      + destruct (I8 a q k L) as [F|(s & x & H)]; [left; exact F|right]. exists s, x.
        destruct (source_eq s src) as [->|NE]; [|exact H]. rewrite ES in H. destruct H; discriminate.
    - intros e HE. apply in_app_iff in HE. destruct HE as [HE|[<-|[]]]; [apply I9, HE|]. cbn [place_ok]. split; [exact LM|].
      split; [exact LJ|]. destruct src; [exact Logic.I|apply A].
  Qed.
  Lemma move_inv w w' : finv w -> move w w' -> finv w'.
  Proof.
    intros I []; eauto using inv_pc, inv_take, inv_call, inv_begin, inv_store, inv_ticket.
    destruct I as [I1 I2 I3 I4 I5 I6 I7 I8 I9]. split; auto.
  Qed.
  Lemma step_inv w a w' : finv w -> fstep w a = Ok w' -> finv w'.
  Proof. intros I E. eapply move_inv, step_moves; eassumption. Qed.
  Lemma run_inv s : forall w w', finv w -> frun w s = Ok w' -> finv w'.
  Proof.
    induction s as [|a s IH]; intros w w' I; cbn [FlowModel.frun].
    - intros H. injection H as <-. exact I.
    - destruct (fstep w a) as [w1| |] eqn:E; cbn [bind]; [|discriminate|discriminate]. apply IH. eapply step_inv; eassumption.
  Qed.

  (** ** nodes destroyed after their feeders are not pushed into *)
  Definition quiet (w : fworld) (m : nat) : Prop :=
    (forall k, (k < length nodes)%nat -> k <> m -> feeds func k m -> gone w k = true) /\
    (forall k, through_with m (f_send w (Outsider k))).
  Definition aimed (w : fworld) : Prop :=
    (forall m, f_closed w m = true -> quiet w m) /\
    (forall src, within nodes (s_items (f_send w src))) /\
    (forall a b m v, In (m, v) (s_items (f_send w (Worker a b))) -> feeds func a m) /\
    (forall a b m q i v, holds (f_send w (Worker a b)) m q i v -> feeds func a m) /\
    (forall src m q i v, holds (f_send w src) m q i v -> (m < length nodes)%nat).
  Lemma gone_spec w m : (m < length nodes)%nat -> gone w m = true ->
    f_closed w m = true /\ forall n, (n < workers_of (kind_of m))%nat -> f_pc w m n = WDone.
  Proof using nodes. clear BP B func progs.
    intros L H. unfold FlowModel.gone in H. apply orb_true_iff in H. destruct H as [H|H]; [apply Nat.leb_le in H; lia|].
    apply andb_true_iff in H. destruct H as [H1 H2]. split; [exact H1|]. intros n Hn. rewrite forallb_forall in H2.
    specialize (H2 n). rewrite in_seq in H2. specialize (H2 ltac:(lia)). destruct (f_pc w m n); try discriminate. reflexivity.
  Qed.
  Lemma gone_intro w m : f_closed w m = true -> (forall n, (n < workers_of (kind_of m))%nat -> f_pc w m n = WDone) -> gone w m = true.
  Proof using nodes. clear BP B func progs.
    intros H1 H2. unfold FlowModel.gone. apply orb_true_iff. right. apply andb_true_iff. split; [exact H1|].
    apply forallb_forall. intros n Hn. apply in_seq in Hn. rewrite H2 by lia. reflexivity.
  Qed.
  (** Ended workers stay so, closed nodes too. *)
  Lemma done_stays w w' m n : move w w' -> f_pc w m n = WDone -> f_pc w' m n = WDone.
  Proof.
    intros []; cbn [fnote put_pc put_queue put_send f_pc]; auto; intros ED.
    - match goal with |- set2 (f_pc w) ?x ?y ?z m n = _ => destruct (set2_get (f_pc w) x y z m n) as [(-> & -> & E)|[N E]] end;
        rewrite E; [|exact ED].
      match goal with H : next_pc _ _ _ _ _ |- _ => unfold next_pc in H; rewrite ED in H; destruct H end.
    - match goal with |- set2 (f_pc w) ?x ?y ?z m n = _ => destruct (set2_get (f_pc w) x y z m n) as [(-> & -> & E)|[N E]] end;
        rewrite E; [congruence|exact ED].
    - match goal with |- set2 (f_pc w) ?x ?y ?z m n = _ => destruct (set2_get (f_pc w) x y z m n) as [(-> & -> & E)|[N E]] end;
        rewrite E; [congruence|exact ED].
  Qed.
  Lemma closed_stays' w w' m : move w w' -> f_closed w m = true -> f_closed w' m = true.
  Proof. intros []; auto. cbn [f_closed]. intros ->. destruct (m =? m0)%nat; reflexivity. Qed.
  Lemma gone_stays w w' m : move w w' -> gone w m = true -> gone w' m = true.
  Proof using nodes B func. clear BP progs.
    intros M H. destruct (Nat.lt_ge_cases m (length nodes)) as [L|L].
    - destruct (gone_spec w m L H) as [H1 H2]. apply gone_intro; [eapply closed_stays'; eassumption|].
      intros n Hn. eapply done_stays; [exact M|auto].
    - unfold FlowModel.gone. apply orb_true_iff. left. apply Nat.leb_le, L.
  Qed.
  Lemma through_cons m a v l pc : through_with m (Sender ((a, v) :: l) pc) -> a <> m /\ for_node m l = [].
  Proof.
    intros [H _]. unfold for_node in H. cbn [s_items filter fst] in H. destruct (Nat.eqb_spec a m); [discriminate|]. split; assumption.
  Qed.
  Lemma through_stays w w' m k : move w w' -> through_with m (f_send w (Outsider k)) -> through_with m (f_send w' (Outsider k)).
  Proof.
    intros []; cbn [fnote put_pc put_queue put_send f_send]; auto; intros T;
      try match goal with |- context[source_eq (Outsider k) ?s] => destruct (source_eq (Outsider k) s) as [E|_]; [|exact T] end.
    - subst src. rewrite H0 in T. destruct (through_cons _ _ _ _ _ T) as [T1 T2]. split; cbn [s_items s_pc]; assumption.
    - subst src. destruct T as [T1 T2]. rewrite H0 in T2. split; cbn [s_items s_pc]; assumption.
    - subst src. destruct T as [T1 T2]. split; cbn [s_items s_pc]; [exact T1|exact I].
  Qed.
  Lemma push_closed w src q w' : push_step nodes B w src q = Ok w' -> f_closed w' = f_closed w.
  Proof.
    unfold push_step. destruct (f_send w src) as [its pc]. cbn [s_pc s_items]. destruct pc as [|m j i v|m j i v].
    - destruct its as [|[m v] rest]; [intros H; injection H as <-; reflexivity|].
      destruct (gone w m); [discriminate|]. intros H. injection H as <-. reflexivity.
    - destruct (gone w m); [discriminate|]. intros H. injection H as <-. reflexivity.
    - destruct (gone w m); [discriminate|]. intros H. injection H as <-. reflexivity.
  Qed.
  Lemma step_closed w a w' m : fstep w a = Ok w' -> a <> FDestroy m -> f_closed w' m = f_closed w m.
  Proof.
    destruct a as [k q|x n q|x]; cbn [FlowModel.fstep]; intros E N.
    - rewrite (push_closed _ _ _ _ E). reflexivity.
    - destruct (_ && _); [|injection E as <-; reflexivity]. destruct (_ <? _)%nat; [|discriminate].
      unfold work_step in E. cbv zeta in E. destruct (f_pc w x n); try (injection E as <-; reflexivity).
      + destruct (nth_error _ _) as [[v|]|]; try discriminate; injection E as <-; reflexivity.
      + destruct (nth_error _ _) as [[v|]|]; try discriminate; injection E as <-; reflexivity.
      + destruct (idle_sender _); [injection E as <-; reflexivity|]. rewrite (push_closed _ _ _ _ E). reflexivity.
    - injection E as <-. cbn [f_closed]. destruct (Nat.eqb_spec m x); [congruence|reflexivity].
  Qed.
  Lemma aimed_step w a w' : (forall log m v, within nodes (func log m v)) -> aimed w -> in_turn nodes func w a ->
    fstep w a = Ok w' -> aimed w'.
  Proof.
    intros WF (A1 & A2 & A3 & A4 & A5) TN E. pose proof (step_moves _ _ _ _ _ _ E) as M.
    assert (Q : forall m, quiet w m -> quiet w' m).
    { intros m [Q1 Q2]. split; intros k; [intros L N F; eapply gone_stays; [exact M|apply Q1; assumption]|eapply through_stays; [exact M|apply Q2]]. }
    split.
    { intros m C. apply Q. destruct (f_closed w m) eqn:EC; [apply A1, EC|].
      assert (DEC : a = FDestroy m \/ a <> FDestroy m).
      { destruct a as [k q|x n q|x]; try (right; discriminate). destruct (Nat.eq_dec x m) as [->|N]; [left; reflexivity|right; congruence]. }
      destruct DEC as [->|N]; [exact TN|]. rewrite (step_closed _ _ _ m E N) in C. congruence. }
    clear A1 Q TN. destruct M as [|src m v rest j AC ES G L LJ|src m j i v AC ES G|src m j i v AC ES G|m n pc IN NP|m n IN EP|m n i v IN EP EV|m];
      cbn [fnote put_pc put_queue put_send f_send f_log].
    - auto.
    - assert (A2' := A2 src). rewrite ES in A2'. repeat split.
      + intros s. destruct (source_eq s src); [|apply A2]. intros a' x HI. apply (A2' a' x). right. exact HI.
      + intros x y b u. destruct (source_eq (Worker x y) src) as [<-|]; [|apply A3]. intros HI. apply (A3 x y b u). rewrite ES. right. exact HI.
      + intros x y b q i u. destruct (source_eq (Worker x y) src) as [<-|]; [|apply A4]. intros [H|H]; [|discriminate].
        cbn [s_pc] in H. injection H as <- <- <- <-. apply (A3 x y m v). rewrite ES. left. reflexivity.
      + intros s b q i u. destruct (source_eq s src) as [<-|]; [|apply A5]. intros [H|H]; [|discriminate].
        cbn [s_pc] in H. injection H as <- <- <- <-. exact L.
    - repeat split.
      + intros s. destruct (source_eq s src); [cbn [s_items]|]; apply A2.
      + intros x y b u. destruct (source_eq (Worker x y) src) as [<-|]; [cbn [s_items]|]; apply A3.
      + intros x y b q k u. destruct (source_eq (Worker x y) src) as [<-|]; [|apply A4]. intros [H|H]; [discriminate|].
        cbn [s_pc] in H. injection H as <- <- <- <-. apply (A4 x y m j i v). left. exact ES.
      + intros s b q k u. destruct (source_eq s src) as [<-|]; [|apply A5]. intros [H|H]; [discriminate|].
        cbn [s_pc] in H. injection H as <- <- <- <-. eapply gone_false, G.
    - repeat split.
      + intros s. destruct (source_eq s src); [cbn [s_items]|]; apply A2.
      + intros x y b u. destruct (source_eq (Worker x y) src) as [<-|]; [cbn [s_items]|]; apply A3.
      + intros x y b q k u. destruct (source_eq (Worker x y) src) as [<-|]; [|apply A4]. intros [H|H]; discriminate.
      + intros s b q k u. destruct (source_eq s src) as [<-|]; [|apply A5]. intros [H|H]; discriminate.
    - auto.
    - auto.
    - repeat split.
      + intros s. destruct (source_eq s (Worker m n)); [cbn [s_items]; apply WF|apply A2].
      + intros x y b u. destruct (source_eq (Worker x y) (Worker m n)) as [EQ|]; [|apply A3]. injection EQ as -> ->. cbn [s_items].
        intros HI. exists (f_log w), v, u. exact HI.
      + intros x y b q k u. destruct (source_eq (Worker x y) (Worker m n)) as [EQ|]; [|apply A4]. intros [H|H]; discriminate.
      + intros s b q k u. destruct (source_eq s (Worker m n)) as [EQ|]; [|apply A5]. intros [H|H]; discriminate.
    - auto.
  Qed.
  Lemma aimed_start : (forall k, within nodes (progs k)) -> aimed (fstart B progs).
  Proof.
    intros WP. split; [discriminate|]. cbn [fstart f_send]. split.
    - intros [k|m n]; cbn [s_items]; [apply WP|intros a v []].
    - split; [intros a b m v []|]. split; [intros a b m q i v [H|H]; discriminate|]. intros [k|a b] m q i v [H|H]; discriminate.
  Qed.

  (** The target of a push is not gone. *)
  Lemma target_there w src m : finv w -> aimed w -> active nodes w src -> (m < length nodes)%nat ->
    (exists v, In (m, v) (s_items (f_send w src))) \/ (exists q i v, holds (f_send w src) m q i v) -> gone w m = false.
  Proof.
    intros I (A1 & A2 & A3 & A4 & A5) AC L T. destruct (gone w m) eqn:G; [exfalso|reflexivity].
    destruct (gone_spec w m L G) as [GC GD]. destruct (A1 m GC) as [Q1 Q2].
    destruct src as [k|a b].
    - specialize (Q2 k). destruct Q2 as [Q2 Q3]. destruct T as [(v & HI)|(q & i & v & H)].
      + assert (HV : In v (for_node m (s_items (f_send w (Outsider k))))).
        { unfold for_node. apply in_map_iff. exists (m, v). split; [reflexivity|]. apply filter_In. split; [exact HI|apply Nat.eqb_refl]. }
        rewrite Q2 in HV. destruct HV.
      + destruct H as [H|H]; rewrite H in Q3; congruence.
    - destruct AC as [(IA & IB & IC) EP].
      assert (F : feeds func a m).
      { destruct T as [(v & HI)|(q & i & v & H)]; [eapply A3, HI|eapply A4, H]. }
      destruct (Nat.eq_dec a m) as [->|N].
      + rewrite GD in EP by exact IB. discriminate.
      + destruct (gone_spec w a IA (Q1 a IA N F)) as [_ D]. rewrite D in EP by exact IB. discriminate.
  Qed.
  Lemma push_runs w src q : finv w -> aimed w -> active nodes w src -> exists w', push_step nodes B w src q = Ok w'.
  Proof.
    intros I A AC. pose proof (fun m => target_there w src m I A AC) as TT. unfold push_step.
    destruct A as (A1 & A2 & A3 & A4 & A5). specialize (A2 src). specialize (A5 src). unfold holds in *.
    destruct (f_send w src) as [its pc]. cbn [s_pc s_items] in *.
    destruct pc as [|m j i v|m j i v].
    - destruct its as [|[m v] rest]; [eexists; reflexivity|]. rewrite TT; [eexists; reflexivity|apply (A2 m v); left; reflexivity|].
      left. exists v. left. reflexivity.
    - rewrite TT; [eexists; reflexivity|eapply (A5 m j i v); left; reflexivity|right; exists j, i, v; left; reflexivity].
    - rewrite TT; [eexists; reflexivity|eapply (A5 m j i v); right; reflexivity|right; exists j, i, v; right; reflexivity].
  Qed.
  Lemma step_runs w a : sound_sizes nodes -> finv w -> aimed w -> exists w', fstep w a = Ok w'.
  Proof.
    intros SS I A. destruct a as [k q|m n q|m]; cbn [FlowModel.fstep].
    - apply push_runs; [exact I|exact A|exact Logic.I].
    - destruct (Nat.ltb_spec m (length nodes)) as [H1|H1]; cbn [andb]; [|eexists; reflexivity].
      destruct (Nat.ltb_spec n (workers_of (kind_of m))) as [H2|H2]; [|eexists; reflexivity].
      assert (H3 : (n < queues_of (kind_of m))%nat).
      { destruct (kind_of m) as [|z] eqn:EK; cbn [workers_of queues_of] in *; [exact H2|].
        assert (In (Pool z) nodes) by (rewrite <- EK; apply nth_In, H1). pose proof (SS z H). lia. }
      destruct (Nat.ltb_spec n (queues_of (kind_of m))) as [_|]; [|lia].
      pose proof (i_work _ _ _ _ I m n) as G. unfold FlowProofs1.wgood' in G. unfold work_step. cbv zeta.
      destruct (f_pc w m n) as [ | | | | |i| | ] eqn:EP; try (eexists; reflexivity).
      + destruct (nth_error (fq_slots (f_queue w m n)) (fq_head (f_queue w m n) mod B m)) as [[v|]|] eqn:E; try (eexists; reflexivity).
        apply nth_error_None in E. rewrite (i_len _ _ _ _ I) in E. pose proof (BP m).
        pose proof (Nat.mod_upper_bound (fq_head (f_queue w m n)) (B m)). lia.
      + destruct G as (_ & _ & (v & ->)). eexists; reflexivity.
      + destruct (idle_sender _); [eexists; reflexivity|]. apply push_runs; [exact I|exact A|]. split; [|exact EP].
        split; [exact H1|split; assumption].
    - eexists; reflexivity.
  Qed.
  Lemma run_runs s : sound_sizes nodes -> (forall log m v, within nodes (func log m v)) -> forall w, finv w -> aimed w ->
    feeders_first nodes B func w s -> exists w', frun w s = Ok w'.
  Proof.
    intros SS WF. induction s as [|a s IH]; intros w I A FF; cbn [FlowModel.frun]; [eexists; reflexivity|].
    destruct FF as [TN FF]. destruct (step_runs w a SS I A) as [w1 E]. rewrite E. cbn [bind].
    apply IH; [eapply step_inv; eassumption|eapply aimed_step; eassumption|apply FF, E].
  Qed.
  Lemma run_aimed s : (forall log m v, within nodes (func log m v)) -> forall w w', aimed w ->
    feeders_first nodes B func w s -> frun w s = Ok w' -> aimed w'.
  Proof.
    intros WF. induction s as [|a s IH]; intros w w' A FF; cbn [FlowModel.frun].
    - intros H. injection H as <-. exact A.
    - destruct FF as [TN FF]. destruct (fstep w a) as [w1| |] eqn:E; cbn [bind]; [|discriminate|discriminate].
      apply IH; [eapply aimed_step; eassumption|apply FF; reflexivity].
  Qed.
End Flow.
