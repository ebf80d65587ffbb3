(** Networks of stages and pools: calls and their results, order, a check of the order of
    destruction for the examples. *)
From Verif Require Export FlowProofs4.

Lemma told_given progs src log : told progs src log = given progs src log.
Proof. destruct src; reflexivity. Qed.

Section Flow.
  Variable nodes : list kind.
  Variable B : nat -> nat.
  Variable func : list fev -> nat -> Z -> list (nat * Z).
  Notation kind_of := (kind_of nodes).
  Notation gone := (gone nodes).
  Notation fstep := (fstep nodes B func).
  Notation frun := (frun nodes B func).
  Notation move := (move nodes B func).

  (** Every call is recorded with what the function answers at that moment. *)
  Definition honest (log : list fev) : Prop :=
    forall l1 m n v out l2, log = l1 ++ FCall m n v out :: l2 -> out = func l1 m v.
  Lemma honest_snoc log e : honest log -> (forall m n v out, e = FCall m n v out -> out = func log m v) -> honest (log ++ [e]).
  Proof.
    intros H HE l1 m n v out l2 E. destruct (exists_last (l := FCall m n v out :: l2)) as (l3 & x & E3); [discriminate|].
    rewrite E3, app_assoc in E. apply app_inj_tail in E. destruct E as [E ->].
    destruct l3 as [|y l3].
    - cbn [app] in E3. injection E3 as <- _. rewrite app_nil_r in E. subst log. eapply HE. reflexivity.
    - cbn [app] in E3. injection E3 as <- ->. eapply H. exact E.
  Qed.
  Lemma honest_move w w' : move w w' -> honest (f_log w) -> honest (f_log w').
  Proof.
    intros M H; destruct M; cbn [fnote put_pc put_queue put_send f_log]; auto; apply honest_snoc; auto; intros a b x o E; [discriminate|].
    injection E as <- <- <- <-. reflexivity.
  Qed.
  Lemma honest_run s : forall w w', frun w s = Ok w' -> honest (f_log w) -> honest (f_log w').
  Proof.
    induction s as [|a s IH]; intros w w'; cbn [FlowModel.frun]; [intros H; injection H as <-; auto|].
    destruct (fstep w a) as [w1| |] eqn:E; cbn [bind]; [|discriminate|discriminate].
    intros R H. eapply IH; [exact R|]. eapply honest_move; [eapply step_moves, E|exact H].
  Qed.
  Lemma honest_feeds log a b m v : honest log -> In (m, v) (outs_of a b log) -> feeds func a m.
  Proof.
    intros H HI. unfold outs_of in HI. apply in_flat_map in HI. destruct HI as (e & HE & HI).
    destruct e as [|x y u out]; [destruct HI|]. destruct (pair_case x a y b out []) as [(-> & -> & E)|[_ E]]; rewrite E in HI; [|destruct HI].
    apply in_split in HE. destruct HE as (l1 & l2 & HE). rewrite (H _ _ _ _ _ _ HE) in HI. exists l1, u, v. exact HI.
  Qed.

  Lemma in_sent src m q v log : In (FPush src m q v) log -> In (m, v) (sent_by src log).
  Proof.
    intros H. unfold sent_by. apply in_flat_map. exists (FPush src m q v). split; [exact H|].
    destruct (source_eq src src); [left; reflexivity|congruence].
  Qed.
  Lemma one_queue m src log : kind_of m = Stage ->
    (forall e, In e log -> match e with FPush s a q _ => a = m -> s = src /\ q = 0%nat | _ => True end) ->
    in_queue m 0 log = for_node m (sent_by src log).
  Proof.
    intros KS. induction log as [|e log IH]; intros H; [reflexivity|].
    assert (IH' : in_queue m 0 log = for_node m (sent_by src log)) by (apply IH; intros x HX; apply H; right; exact HX).
    specialize (H e (or_introl eq_refl)). destruct e as [s a q v|]; [|exact IH'].
    unfold in_queue, sent_by in *. cbn [flat_map]. rewrite for_node_app. rewrite IH'. f_equal.
    destruct (Nat.eqb_spec a m) as [->|N].
    - destruct (H eq_refl) as [-> ->]. cbn [andb Nat.eqb]. destruct (source_eq src src); [|congruence].
      unfold for_node. cbn [filter fst]. rewrite Nat.eqb_refl. reflexivity.
    - cbn [andb]. destruct (source_eq s src); [|reflexivity]. unfold for_node. cbn [filter fst].
      destruct (Nat.eqb_spec a m); [contradiction|reflexivity].
  Qed.

  Variable progs : nat -> list (nat * Z).
  Hypothesis BP : forall m, (0 < B m)%nat.
  Lemma stage_called w m : finv nodes B progs w -> kind_of m = Stage -> called m (f_log w) = called_by m 0 (f_log w).
  Proof.
    intros I KS. pose proof (i_place _ _ _ _ I) as PL. clear I. induction (f_log w) as [|e log IH]; [reflexivity|].
    unfold called, called_by in *. cbn [flat_map]. rewrite IH by (intros x HX; apply PL; right; exact HX). f_equal.
    specialize (PL e (or_introl eq_refl)). destruct e as [|a b v out]; [reflexivity|]. destruct (Nat.eqb_spec a m) as [->|N]; [|reflexivity].
    destruct PL as (_ & PL & _). rewrite KS in PL. cbn [workers_of] in PL. replace b with 0%nat by lia. reflexivity.
  Qed.
  Lemma from_one w m src : finv nodes B progs w -> vinv B w -> honest (f_log w) -> fits B w -> kind_of m = Stage ->
    only_source nodes func progs m src ->
    exists rest, for_node m (told progs src (f_log w)) = called m (f_log w) ++ rest.
  Proof.
    intros I V H F KS [O1 O2]. rewrite (stage_called w m I KS). destruct (V F) as [_ V2]. specialize (V2 m 0%nat).
    assert (E : in_queue m 0 (f_log w) = for_node m (sent_by src (f_log w))).
    { apply one_queue; [exact KS|]. intros e HE. destruct e as [s a q v|]; [|exact Logic.I]. intros ->.
      pose proof (i_place _ _ _ _ I _ HE) as PL. destruct PL as (_ & PQ & PS). rewrite KS in PQ. cbn [queues_of] in PQ. split; [|lia].
      assert (HG : In (m, v) (given progs s (f_log w))) by (rewrite (i_sent _ _ _ _ I s); apply in_or_app; left; eapply in_sent, HE).
      destruct s as [k|a b].
      - destruct (source_eq (Outsider k) src) as [|N]; [assumption|]. exfalso. specialize (O1 k N). cbn [given] in HG.
        assert (HV : In v (for_node m (progs k))).
        { unfold for_node. apply in_map_iff. exists (m, v). split; [reflexivity|]. apply filter_In. split; [exact HG|apply Nat.eqb_refl]. }
        rewrite O1 in HV. destruct HV.
      - apply O2; [apply PS|]. eapply honest_feeds; [exact H|exact HG]. }
    exists (skipn (length (called_by m 0 (f_log w))) (in_queue m 0 (f_log w)) ++ for_node m (s_items (f_send w src))).
    rewrite told_given, (i_sent _ _ _ _ I src), for_node_app, <- E, app_assoc. f_equal.
    pose proof (firstn_skipn (length (called_by m 0 (f_log w))) (in_queue m 0 (f_log w))) as FS. rewrite <- V2 in FS. symmetry. exact FS.
  Qed.

  (** ** a check for the examples *)
  Lemma closed_after s : forall w w' m, frun w s = Ok w' -> In (FDestroy m) s -> f_closed w' m = true.
  Proof using nodes B func. clear BP progs.
    induction s as [|a s IH]; intros w w' m; cbn [FlowModel.frun]; [intros _ []|].
    destruct (fstep w a) as [w1| |] eqn:E; cbn [bind]; [|discriminate|discriminate]. intros R [->|HI]; [|eapply IH; eassumption].
    assert (C : f_closed w1 m = true).
    { cbn [FlowModel.fstep] in E. injection E as <-. cbn [f_closed]. rewrite Nat.eqb_refl. reflexivity. }
    clear - R C. revert w1 R C. induction s as [|a s IH]; intros w1; cbn [FlowModel.frun]; [intros H; injection H as <-; auto|].
    destruct (fstep w1 a) as [w2| |] eqn:E; cbn [bind]; [|discriminate|discriminate]. intros R C. apply (IH w2 R).
    eapply closed_stays'; [eapply step_moves, E|exact C].
  Qed.
  Definition throughb (m : nat) (x : sender) : bool :=
    match for_node m (s_items x) with [] => true | _ => false end &&
    match s_pc x with SIdle => true | STicket a _ _ _ | SStoring a _ _ _ => negb (a =? m)%nat end.
  Lemma throughb_ok m x : throughb m x = true -> through_with m x.
  Proof.
    unfold throughb, through_with. intros H. apply andb_true_iff in H. destruct H as [H1 H2].
    split; [destruct (for_node m (s_items x)); [reflexivity|discriminate]|].
    destruct (s_pc x); auto; apply negb_true_iff, Nat.eqb_neq in H2; exact H2.
  Qed.
  Section Check.
    Variable np : nat.
    Variable fd : nat -> nat -> bool.
    Definition turnb (w : fworld) (a : fagent) : bool :=
      match a with
      | FDestroy m => forallb (fun k => (k =? m)%nat || negb (fd k m) || gone w k) (seq 0 (length nodes)) &&
                      forallb (fun k => throughb m (f_send w (Outsider k))) (seq 0 np)
      | _ => true
      end.
    Fixpoint checkb (w : fworld) (s : list fagent) : bool :=
      match s with
      | [] => true
      | a :: rest => turnb w a && match fstep w a with Ok w' => checkb w' rest | _ => true end
      end.
    Definition rest_idle (w : fworld) : Prop := forall k, (np <= k)%nat -> f_send w (Outsider k) = Sender [] SIdle.
    Lemma rest_idle_move w w' : move w w' -> rest_idle w -> rest_idle w'.
    Proof using np nodes B func. clear BP progs fd.
      intros M RI k L. specialize (RI k L). destruct M; cbn [fnote put_pc put_queue put_send f_send]; auto;
        destruct (source_eq (Outsider k) _) as [EQ|]; auto; try (subst src); try discriminate EQ; rewrite RI in *; discriminate.
    Qed.
    Lemma checkb_ok s : (forall k m, feeds func k m -> fd k m = true) -> forall w, rest_idle w -> checkb w s = true -> feeders_first nodes B func w s.
    Proof using np fd nodes B func. clear BP progs.
      intros FD. induction s as [|a s IH]; intros w RI C; [exact Logic.I|]. cbn [checkb feeders_first] in *.
      apply andb_true_iff in C. destruct C as [C1 C2]. split.
      - destruct a as [k q|m n q|m]; try exact Logic.I. cbn [turnb in_turn] in *. apply andb_true_iff in C1. destruct C1 as [C1 C3].
        rewrite forallb_forall in C1, C3. split.
        + intros k L N F. specialize (C1 k). rewrite in_seq in C1. specialize (C1 ltac:(lia)). rewrite (FD k m F) in C1.
          destruct (Nat.eqb_spec k m); [contradiction|]. exact C1.
        + intros k. destruct (Nat.lt_ge_cases k np) as [L|L]; [apply throughb_ok, C3, in_seq; lia|].
          rewrite (RI k L). split; [reflexivity|exact Logic.I].
      - intros w' E. rewrite E in C2. apply IH; [|exact C2]. eapply rest_idle_move; [eapply step_moves, E|exact RI].
    Qed.
    Lemma rest_idle_run s : forall w w', frun w s = Ok w' -> rest_idle w -> rest_idle w'.
    Proof using np nodes B func. clear BP progs fd.
      induction s as [|a s IH]; intros w w'; cbn [FlowModel.frun]; [intros H; injection H as <-; auto|].
      destruct (fstep w a) as [w1| |] eqn:E; cbn [bind]; [|discriminate|discriminate].
      intros R H. eapply IH; [exact R|]. eapply rest_idle_move; [eapply step_moves, E|exact H].
    Qed.
    Lemma rest_idle_start pr : (forall k, (np <= k)%nat -> pr k = []) -> rest_idle (fstart B pr).
    Proof using np B. clear BP progs fd func nodes. intros H k L. cbn [fstart f_send]. rewrite H by exact L. reflexivity. Qed.
    Definition overb (w : fworld) : bool :=
      forallb (fun k => idle_sender (f_send w (Outsider k))) (seq 0 np) && forallb (gone w) (seq 0 (length nodes)).
    Lemma overb_ok w : rest_idle w -> overb w = true -> all_over nodes w.
    Proof using np nodes. clear BP progs fd func B.
      intros RI H. unfold overb in H. apply andb_true_iff in H. destruct H as [H1 H2]. rewrite forallb_forall in H1, H2. split.
      - intros k. destruct (Nat.lt_ge_cases k np) as [L|L]; [apply H1, in_seq; lia|rewrite (RI k L); reflexivity].
      - intros m L. apply H2, in_seq. lia.
    Qed.
  End Check.
End Flow.
