(** Networks of stages and pools: the moves, and what holds at any load. *)
From Verif Require Export FlowSpec PipelineProofs1.

(** ** the functions of the log *)
Section Logs.
  Variables (log : list fev) (e : fev).
  Lemma in_queue_snoc m q : in_queue m q (log ++ [e]) = in_queue m q log ++
    match e with FPush _ a b v => if (a =? m)%nat && (b =? q)%nat then [v] else [] | _ => [] end.
  Proof. unfold in_queue. rewrite flat_map_app. cbn [flat_map]. rewrite app_nil_r. reflexivity. Qed.
  Lemma called_by_snoc m n : called_by m n (log ++ [e]) = called_by m n log ++
    match e with FCall a b v _ => if (a =? m)%nat && (b =? n)%nat then [v] else [] | _ => [] end.
  Proof. unfold called_by. rewrite flat_map_app. cbn [flat_map]. rewrite app_nil_r. reflexivity. Qed.
  Lemma called_snoc m : called m (log ++ [e]) = called m log ++
    match e with FCall a _ v _ => if (a =? m)%nat then [v] else [] | _ => [] end.
  Proof. unfold called. rewrite flat_map_app. cbn [flat_map]. rewrite app_nil_r. reflexivity. Qed.
  Lemma outs_of_snoc m n : outs_of m n (log ++ [e]) = outs_of m n log ++
    match e with FCall a b _ out => if (a =? m)%nat && (b =? n)%nat then out else [] | _ => [] end.
  Proof. unfold outs_of. rewrite flat_map_app. cbn [flat_map]. rewrite app_nil_r. reflexivity. Qed.
  Lemma sent_by_snoc src : sent_by src (log ++ [e]) = sent_by src log ++
    match e with FPush s m _ v => if source_eq s src then [(m, v)] else [] | _ => [] end.
  Proof. unfold sent_by. rewrite flat_map_app. cbn [flat_map]. rewrite app_nil_r. reflexivity. Qed.
End Logs.

Lemma set2_same {A} (f : nat -> nat -> A) m n x : set2 f m n x m n = x.
Proof. unfold set2. rewrite !Nat.eqb_refl. reflexivity. Qed.
Lemma set2_other {A} (f : nat -> nat -> A) m n x a b : ~ (a = m /\ b = n) -> set2 f m n x a b = f a b.
Proof.
  intros H. unfold set2. destruct (Nat.eqb_spec a m), (Nat.eqb_spec b n); cbn [andb]; try reflexivity. exfalso. auto.
Qed.
Lemma set2_get {A} (f : nat -> nat -> A) m n x a b :
  (a = m /\ b = n /\ set2 f m n x a b = x) \/ (~ (a = m /\ b = n) /\ set2 f m n x a b = f a b).
Proof.
  destruct (Nat.eq_dec a m) as [->|N1]; [destruct (Nat.eq_dec b n) as [->|N2]|].
  - left. rewrite set2_same. auto.
  - right. split; [intros [_ ?]; auto|]. apply set2_other. intros [_ ?]; auto.
  - right. split; [intros [? _]; auto|]. apply set2_other. intros [? _]; auto.
Qed.
Lemma andb2 a m b n : (a =? m)%nat && (b =? n)%nat = true <-> a = m /\ b = n.
Proof. rewrite andb_true_iff, !Nat.eqb_eq. tauto. Qed.
Lemma pair_case {A} (a m b n : nat) (x y : A) :
  (a = m /\ b = n /\ (if (a =? m)%nat && (b =? n)%nat then x else y) = x) \/
  (~ (a = m /\ b = n) /\ (if (a =? m)%nat && (b =? n)%nat then x else y) = y).
Proof.
  destruct ((a =? m)%nat && (b =? n)%nat) eqn:E.
  - apply andb2 in E. left. tauto.
  - right. split; [|reflexivity]. intros H. apply andb2 in H. congruence.
Qed.

Section Flow.
  Variable nodes : list kind.
  Variable B : nat -> nat.
  Variable func : list fev -> nat -> Z -> list (nat * Z).
  Notation kind_of := (kind_of nodes).
  Notation gone := (gone nodes).
  Notation fstep := (fstep nodes B func).
  Notation frun := (frun nodes B func).

  Lemma queues_pos k : (0 < queues_of k)%nat.
  Proof. destruct k; cbn; lia. Qed.

  Definition inside (m n : nat) : Prop :=
    (m < length nodes)%nat /\ (n < workers_of (kind_of m))%nat /\ (n < queues_of (kind_of m))%nat.
  Definition active (w : fworld) (src : source) : Prop :=
    match src with Outsider _ => True | Worker m n => inside m n /\ f_pc w m n = WCall end.
  Definition next_pc (w : fworld) (m n : nat) (pc : wpc) : Prop :=
    let qu := f_queue w m n in
    match f_pc w m n with
    | WOuter => pc = if f_closed w m then WOuter2 else WInner
    | WOuter2 => fq_tail qu = fq_head qu /\ pc = WDone \/ fq_tail qu <> fq_head qu /\ pc = WInner
    | WInner => (fq_head qu < fq_tail qu)%nat /\ pc = WCheck \/ (fq_tail qu <= fq_head qu)%nat /\ pc = WOuter
    | WCheck => nth_error (fq_slots qu) (fq_head qu mod B m) = Some None /\ pc = WInner \/
                (exists v, nth_error (fq_slots qu) (fq_head qu mod B m) = Some (Some v)) /\ pc = WTake
    | WCall => idle_sender (f_send w (Worker m n)) = true /\ pc = WInner
    | _ => False
    end.
  Definition with_queue (qu : fqueue) (t h : nat) : fqueue := FQ (fq_slots qu) t h.

  Inductive move (w : fworld) : fworld -> Prop :=
  | mv_none : move w w
  | mv_ticket src m v rest j : active w src -> f_send w src = Sender ((m, v) :: rest) SIdle -> gone w m = false ->
      (m < length nodes)%nat -> (j < queues_of (kind_of m))%nat ->
      move w (fnote (put_send (put_queue w m j (FQ (fq_slots (f_queue w m j)) (S (fq_tail (f_queue w m j))) (fq_head (f_queue w m j)))) src
                              (Sender rest (STicket m j (fq_tail (f_queue w m j)) v))) (FPush src m j v))
  | mv_begin src m j i v : active w src -> s_pc (f_send w src) = STicket m j i v -> gone w m = false ->
      move w (put_send w src (Sender (s_items (f_send w src)) (SStoring m j i v)))
  | mv_store src m j i v : active w src -> s_pc (f_send w src) = SStoring m j i v -> gone w m = false ->
      move w (put_send (put_queue w m j (FQ (upd_nth (fq_slots (f_queue w m j)) (i mod B m)%nat (Some v))
                                            (fq_tail (f_queue w m j)) (fq_head (f_queue w m j)))) src
                       (Sender (s_items (f_send w src)) SIdle))
  | mv_pc m n pc : inside m n -> next_pc w m n pc -> move w (put_pc w m n pc)
  | mv_take m n : inside m n -> f_pc w m n = WTake ->
      move w (put_pc (put_queue w m n (FQ (fq_slots (f_queue w m n)) (fq_tail (f_queue w m n)) (S (fq_head (f_queue w m n))))) m n
                     (WRead (fq_head (f_queue w m n))))
  | mv_call m n i v : inside m n -> f_pc w m n = WRead i ->
      nth_error (fq_slots (f_queue w m n)) (i mod B m) = Some (Some v) ->
      move w (fnote (put_send (put_pc w m n WCall) (Worker m n) (Sender (func (f_log w) m v) SIdle)) (FCall m n v (func (f_log w) m v)))
  | mv_close m : move w (FWorld (f_queue w) (f_pc w) (f_send w) (fun a => if (a =? m)%nat then true else f_closed w a) (f_log w)).

  Lemma gone_false w m : gone w m = false -> (m < length nodes)%nat.
  Proof. unfold FlowModel.gone. intros H. apply orb_false_iff in H. destruct H as [H _]. apply Nat.leb_gt in H. exact H. Qed.
  Lemma push_moves w src q w' : active w src -> push_step nodes B w src q = Ok w' -> move w w'.
  Proof.
    intros A. unfold push_step. destruct (f_send w src) as [its pc] eqn:E. cbn [s_pc s_items].
    destruct pc as [|m j i v|m j i v].
    - destruct its as [|[m v] rest]; [intros H; injection H as <-; constructor|].
      destruct (gone w m) eqn:G; [discriminate|]. intros H. injection H as <-.
      eapply mv_ticket; eauto using gone_false. apply Nat.mod_upper_bound. pose proof (queues_pos (kind_of m)). lia.
    - destruct (gone w m) eqn:G; [discriminate|]. intros H. injection H as <-.
      pose proof (mv_begin w src m j i v A) as K. rewrite E in K. apply K; [reflexivity|exact G].
    - destruct (gone w m) eqn:G; [discriminate|]. intros H. injection H as <-.
      pose proof (mv_store w src m j i v A) as K. rewrite E in K. apply K; [reflexivity|exact G].
  Qed.
  Lemma step_moves w a w' : fstep w a = Ok w' -> move w w'.
  Proof.
    destruct a as [k q|m n q|m]; cbn [FlowModel.fstep].
    - apply push_moves. exact I.
    - destruct (Nat.ltb_spec m (length nodes)) as [H1|H1]; cbn [andb]; [|intros H; injection H as <-; constructor].
      destruct (Nat.ltb_spec n (workers_of (kind_of m))) as [H2|H2]; [|intros H; injection H as <-; constructor].
      destruct (Nat.ltb_spec n (queues_of (kind_of m))) as [H3|H3]; [|discriminate].
      assert (IN : inside m n) by (split; [|split]; assumption).
      pose proof (fun pc => mv_pc w m n pc IN) as MP. unfold next_pc in MP.
      pose proof (mv_take w m n IN) as MT. pose proof (mv_call w m n) as MC.
      assert (AC : f_pc w m n = WCall -> active w (Worker m n)) by (intros; split; assumption).
      unfold work_step. destruct (f_pc w m n) as [ | | | | |i| | ] eqn:EP; cbv zeta.
      + intros H. injection H as <-. apply MP. reflexivity.
      + intros H. injection H as <-. apply MP. destruct (Nat.eqb_spec (fq_tail (f_queue w m n)) (fq_head (f_queue w m n))); auto.
      + intros H. injection H as <-. apply MP. destruct (Nat.ltb_spec (fq_head (f_queue w m n)) (fq_tail (f_queue w m n))); auto.
      + destruct (nth_error _ _) as [[v|]|] eqn:E; [| |discriminate]; intros H; injection H as <-; apply MP.
        * right. split; [exists v|]; reflexivity.
        * left. split; reflexivity.
      + intros H. injection H as <-. apply MT. reflexivity.
      + destruct (nth_error _ _) as [[v|]|] eqn:E; [|discriminate|discriminate]. intros H. injection H as <-. eapply MC; eauto.
      + destruct (idle_sender _) eqn:EI.
        * intros H. injection H as <-. apply MP. split; reflexivity.
        * apply push_moves. apply AC. reflexivity.
      + intros H. injection H as <-. constructor.
    - intros H. injection H as <-. constructor.
  Qed.

  (** ** the log only grows *)
  Lemma move_log w w' : move w w' -> exists l, f_log w' = f_log w ++ l.
  Proof.
    intros []; try (exists []; rewrite app_nil_r; reflexivity); eexists; reflexivity.
  Qed.
  Lemma frun_log s : forall w w', frun w s = Ok w' -> exists l, f_log w' = f_log w ++ l.
  Proof.
    induction s as [|a s IH]; intros w w'; cbn [FlowModel.frun].
    - intros H. injection H as <-. exists []. rewrite app_nil_r. reflexivity.
    - destruct (fstep w a) as [w1| |] eqn:E; cbn [bind]; [|discriminate|discriminate]. intros H.
      destruct (move_log _ _ (step_moves _ _ _ E)) as [l1 E1]. destruct (IH _ _ H) as [l2 E2].
      exists (l1 ++ l2). rewrite E2, E1, app_assoc. reflexivity.
  Qed.
  Lemma in_queue_app m q l1 l2 : in_queue m q (l1 ++ l2) = in_queue m q l1 ++ in_queue m q l2.
  Proof. unfold in_queue. apply flat_map_app. Qed.
  Lemma fits_before w w' : (exists l, f_log w' = f_log w ++ l) -> fits B w' -> fits B w.
  Proof.
    intros [l E] H m q. specialize (H m q). rewrite E, in_queue_app, app_length in H. lia.
  Qed.

  (** ** queues, workers and senders *)
  Definition filled (l : list (option Z)) (i : nat) : Prop := exists v, nth_error l i = Some (Some v).
  Lemma filled_upd l i j v : filled l j -> filled (upd_nth l i (Some v)) j.
  Proof.
    intros [x H]. destruct (Nat.eq_dec i j) as [->|N].
    - exists v. apply upd_same. apply nth_lt in H. exact H.
    - exists x. rewrite upd_other by exact N. exact H.
  Qed.
  Definition wgood' (w : fworld) (m n : nat) : Prop :=
    let qu := f_queue w m n in
    let c := length (called_by m n (f_log w)) in
    match f_pc w m n with
    | WRead i => fq_head qu = S c /\ i = c /\ filled (fq_slots qu) (i mod B m)
    | WTake => fq_head qu = c /\ (fq_head qu < fq_tail qu)%nat /\ filled (fq_slots qu) (fq_head qu mod B m)
    | WCheck => fq_head qu = c /\ (fq_head qu < fq_tail qu)%nat
    | _ => fq_head qu = c
    end.
  Definition given (progs : nat -> list (nat * Z)) (src : source) (log : list fev) : list (nat * Z) :=
    match src with Outsider k => progs k | Worker m n => outs_of m n log end.
  Definition holds (x : sender) (m q i : nat) (v : Z) : Prop := s_pc x = STicket m q i v \/ s_pc x = SStoring m q i v.
  Definition place_ok (e : fev) : Prop :=
    match e with
    | FPush src m q _ => (m < length nodes)%nat /\ (q < queues_of (kind_of m))%nat /\
        match src with Outsider _ => True | Worker a b => inside a b end
    | FCall m n _ _ => inside m n
    end.
  Record finv (progs : nat -> list (nat * Z)) (w : fworld) : Prop := {
    i_len : forall m q, length (fq_slots (f_queue w m q)) = B m;
    i_tail : forall m q, fq_tail (f_queue w m q) = length (in_queue m q (f_log w));
    i_head : forall m q, (fq_head (f_queue w m q) <= fq_tail (f_queue w m q))%nat;
    i_work : forall m n, wgood' w m n;
    i_sent : forall src, given progs src (f_log w) = sent_by src (f_log w) ++ s_items (f_send w src);
    i_rest : forall m n, f_pc w m n <> WCall -> f_send w (Worker m n) = Sender [] SIdle;
    i_hold : forall src m q i v, holds (f_send w src) m q i v -> nth_error (in_queue m q (f_log w)) i = Some v;
    i_fill : forall m q i, (i < fq_tail (f_queue w m q))%nat ->
      filled (fq_slots (f_queue w m q)) (i mod B m) \/ exists src v, holds (f_send w src) m q i v;
    i_place : forall e, In e (f_log w) -> place_ok e
  }.

  Lemma finv_start progs : finv progs (fstart B progs).
  Proof.
    split; cbn [fstart f_queue f_pc f_send f_log fq_slots fq_tail fq_head].
    - intros m q. apply repeat_length.
    - reflexivity.
    - intros. lia.
    - intros m n. reflexivity.
    - intros [k|m n]; reflexivity.
    - intros m n _. reflexivity.
    - intros src m q i v [H|H]; destruct src; discriminate H.
    - intros. lia.
    - intros e [].
  Qed.

  Lemma put_send_same w src x : f_send (put_send w src x) src = x.
  Proof. cbn [put_send f_send]. destruct (source_eq src src); [reflexivity|congruence]. Qed.
  Lemma put_send_other w src x s : s <> src -> f_send (put_send w src x) s = f_send w s.
  Proof. intros N. cbn [put_send f_send]. destruct (source_eq s src); [congruence|reflexivity]. Qed.

  (** What does not touch a worker or its queue's head, slots kept filled, keeps it good. *)
  Lemma wgood_keep w w' m n :
    f_pc w' m n = f_pc w m n -> called_by m n (f_log w') = called_by m n (f_log w) ->
    fq_head (f_queue w' m n) = fq_head (f_queue w m n) ->
    (fq_tail (f_queue w m n) <= fq_tail (f_queue w' m n))%nat ->
    (forall i, filled (fq_slots (f_queue w m n)) i -> filled (fq_slots (f_queue w' m n)) i) ->
    wgood' w m n -> wgood' w' m n.
  Proof.
    intros E1 E2 E3 LE F. unfold wgood'. rewrite E1, E2, E3. destruct (f_pc w m n); auto; intros H; repeat split; try tauto; try lia.
    - apply F. tauto.
    - apply F. tauto.
  Qed.
End Flow.
