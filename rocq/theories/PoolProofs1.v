(** One stage or pool in detail: steps, counters, statistics. *)
From Verif Require Import PipelineProofs2.
From Verif Require Export PoolSpec.

Lemma set1_get {A} (f : nat -> A) n x a : (a = n /\ set1 f n x a = x) \/ (a <> n /\ set1 f n x a = f a).
Proof. unfold set1. destruct (Nat.eqb_spec a n); [left|right]; auto. Qed.
Lemma set1_same {A} (f : nat -> A) n x : set1 f n x n = x.
Proof. unfold set1. rewrite Nat.eqb_refl. reflexivity. Qed.
Lemma set1_other {A} (f : nat -> A) n x a : a <> n -> set1 f n x a = f a.
Proof. unfold set1. destruct (Nat.eqb_spec a n); congruence. Qed.

Lemma count_snoc f log e : count f (log ++ [e]) = (count f log + if f e then 1 else 0)%nat.
Proof. unfold count. rewrite filter_app, app_length. cbn [filter]. destruct (f e); reflexivity. Qed.
Lemma measured_snoc n log e : measured n (log ++ [e]) = measured n log ++
  match e with EReturn a x b => if (a =? n)%nat then [(x, b)] else [] | _ => [] end.
Proof. unfold measured. rewrite flat_map_app. cbn [flat_map]. rewrite app_nil_r. reflexivity. Qed.

Definition ofilled (l : list (option Z)) (i : nat) : Prop := exists v, nth_error l i = Some (Some v).
Lemma upd_len {A} (l : list A) i x : length (upd_nth l i x) = length l.
Proof. revert i. induction l as [|y l IH]; intros [|i]; cbn; auto. Qed.
Lemma ofilled_upd l i j v : ofilled l j -> ofilled (upd_nth l i (Some v)) j.
Proof.
  intros (x & H). revert i j H. induction l as [|y l IH]; intros [|i] [|j] H; cbn in *; try discriminate.
  - exists v. reflexivity.
  - exists x. exact H.
  - exists x. exact H.
  - apply (IH i j H).
Qed.

Section Pool.
  Variable pool : bool.
  Variable size B : nat.
  Notation oqueues := (oqueues pool).
  Notation oworkers := (oworkers pool size).
  Notation ostep := (ostep pool size B).
  Notation orun := (orun pool size B).

  Definition onext (w : oworld) (n : nat) (pc : opc) : Prop :=
    let qu := o_queue w n in
    match o_pc w n with
    | OOuter => pc = if o_closed w then OOuter2 else OInner
    | OOuter2 => oq_tail qu = oq_head qu /\ pc = ODone \/ oq_tail qu <> oq_head qu /\ pc = OInner
    | OInner => (oq_head qu < oq_tail qu)%nat /\ pc = OCheck \/ (oq_tail qu <= oq_head qu)%nat /\ pc = OOuter
    | OCheck => pc = OInner \/ ofilled (oq_slots qu) (oq_head qu mod B) /\ pc = OTake
    | _ => False
    end.
  Inductive omove (w : oworld) : oagent -> oworld -> Prop :=
  | om_none a : omove w a w
  | om_begin k t : h_pc (o_push w k) = HIdle -> h_items (o_push w k) <> [] ->
      omove w (OPush k t) (onote (oput_push w k (Pusher (h_items (o_push w k)) (HScan (if pool then 0 else 1) INT_MAX 0))) (EBegin k))
  | om_half k t i mn mi : h_pc (o_push w k) = HScan i mn mi -> (i < oqueues)%nat ->
      omove w (OPush k t) (oput_push w k (Pusher (h_items (o_push w k))
        (HHalf i mn mi t (if t then oq_tail (o_queue w i) else oq_head (o_queue w i)))))
  | om_ticket k t i mn mi v rest : o_push w k = Pusher (v :: rest) (HScan i mn mi) -> (oqueues <= i)%nat ->
      omove w (OPush k t) (onote (oput_push (oput_queue w mi (OQ (oq_slots (o_queue w mi)) (S (oq_tail (o_queue w mi)))
        (oq_head (o_queue w mi)) (oq_stat (o_queue w mi)))) k (Pusher rest (HTicket mi (oq_tail (o_queue w mi)) v))) (ETicket k mi v))
  | om_look k t i mn mi t' x sz : h_pc (o_push w k) = HHalf i mn mi t' x ->
      sz = u64 (if t' then Z.of_nat x - Z.of_nat (oq_head (o_queue w i)) else Z.of_nat (oq_tail (o_queue w i)) - Z.of_nat x) ->
      omove w (OPush k t) (oput_push w k (Pusher (h_items (o_push w k)) (if sz <? mn then HScan (S i) sz i else HScan (S i) mn mi)))
  | om_begin_store k t q i v : h_pc (o_push w k) = HTicket q i v ->
      omove w (OPush k t) (oput_push w k (Pusher (h_items (o_push w k)) (HStoring q i v)))
  | om_store k t q i v : h_pc (o_push w k) = HStoring q i v ->
      omove w (OPush k t) (oput_push (oput_queue w q (OQ (upd_nth (oq_slots (o_queue w q)) (i mod B)%nat (Some v)) (oq_tail (o_queue w q))
        (oq_head (o_queue w q)) (oq_stat (o_queue w q)))) k (Pusher (h_items (o_push w k)) HIdle))
  | om_pc n e pc : (n < oworkers)%nat -> (n < oqueues)%nat -> onext w n pc -> omove w (OWork n e) (oput_pc w n pc)
  | om_take n e : (n < oworkers)%nat -> (n < oqueues)%nat -> o_pc w n = OTake ->
      omove w (OWork n e) (onote (oput_pc (oput_queue w n (OQ (oq_slots (o_queue w n)) (oq_tail (o_queue w n)) (S (oq_head (o_queue w n)))
        (oq_stat (o_queue w n)))) n (ORead (oq_head (o_queue w n)))) (ETake n))
  | om_call n e i v t u : (n < oworkers)%nat -> (n < oqueues)%nat -> o_pc w n = ORead i ->
      time_for_unit (oq_stat (o_queue w n)) = Ok t -> buffer_utilization (oq_stat (o_queue w n)) = Ok u ->
      omove w (OWork n e) (onote (oput_pc w n OCall) (ECall n v (Z.of_nat n) t u))
  | om_return n e m : (n < oworkers)%nat -> (n < oqueues)%nat -> o_pc w n = OCall ->
      m = (to_int e, to_int (Z.of_nat (oq_tail (o_queue w n)) - Z.of_nat (oq_head (o_queue w n)))) ->
      omove w (OWork n e) (onote (oput_pc w n (OStat m)) (EReturn n (fst m) (snd m)))
  | om_measure n e m : (n < oworkers)%nat -> (n < oqueues)%nat -> o_pc w n = OStat m ->
      omove w (OWork n e) (onote (oput_pc (oput_queue w n (OQ (oq_slots (o_queue w n)) (oq_tail (o_queue w n)) (oq_head (o_queue w n))
        (stat_push (oq_stat (o_queue w n)) m))) n OInner) (EMeasure n))
  | om_ask r t : pool = false -> o_ask w r = None -> omove w (OAsk r t) (oput_ask w r (Some t))
  | om_report r t t' x : pool = false -> o_ask w r = Some t' ->
      (if t' then time_for_unit else buffer_utilization) (oq_stat (o_queue w 0)) = Ok x ->
      omove w (OAsk r t) (onote (oput_ask w r None) (EReport r t' x))
  | om_close : omove w OClose (OW (o_queue w) (o_pc w) (o_push w) (o_ask w) true (o_log w)).

  Lemma ostep_moves w a w' : ostep w a = Ok w' -> omove w a w'.
  Proof.
    destruct a as [k t|n e|r t|]; cbn [PoolModel.ostep].
    - intros H. injection H as <-. unfold opush_step. destruct (h_pc (o_push w k)) as [|i mn mi|i mn mi t' x|q i v|q i v] eqn:EP.
      + destruct (h_items (o_push w k)) eqn:EI; [constructor|]. rewrite <- EI. constructor; [exact EP|rewrite EI; discriminate].
      + destruct (Nat.ltb_spec i oqueues) as [L|L]; [apply om_half; assumption|].
        destruct (h_items (o_push w k)) as [|v rest] eqn:EI; [constructor|]. eapply om_ticket; [|exact L].
        destruct (o_push w k); cbn in *; subst; reflexivity.
      + cbv zeta. eapply om_look; [exact EP|reflexivity].
      + apply om_begin_store, EP.
      + apply om_store, EP.
    - destruct (Nat.ltb_spec n oworkers) as [LW|]; [|intros HH; injection HH as <-; constructor].
      destruct (Nat.ltb_spec n oqueues) as [LQ|]; [|discriminate].
      pose proof (fun pc => om_pc w n e pc LW LQ) as MP. unfold onext in MP.
      pose proof (om_take w n e LW LQ) as MT. pose proof (fun i v t u => om_call w n e i v t u LW LQ) as MC.
      pose proof (fun m => om_return w n e m LW LQ) as MR. pose proof (fun m => om_measure w n e m LW LQ) as MM.
      unfold owork_step. destruct (o_pc w n) as [ | | | | |i| |m| ] eqn:EP; cbv zeta.
      + intros H. injection H as <-. apply MP. reflexivity.
      + intros H. injection H as <-. apply MP. destruct (Nat.eqb_spec (oq_tail (o_queue w n)) (oq_head (o_queue w n))); auto.
      + intros H. injection H as <-. apply MP. destruct (Nat.ltb_spec (oq_head (o_queue w n)) (oq_tail (o_queue w n))); auto.
      + destruct (nth_error _ _) as [[v|]|] eqn:E; [| |discriminate]; intros H; injection H as <-; apply MP.
        * right. split; [exists v; exact E|reflexivity].
        * left. reflexivity.
      + intros H. injection H as <-. apply MT. reflexivity.
      + destruct (nth_error _ _) as [[v|]|] eqn:E; [|discriminate|discriminate].
        destruct (time_for_unit _) as [t| |] eqn:ET; cbn [bind]; [|discriminate|discriminate].
        destruct (buffer_utilization _) as [u| |] eqn:EU; cbn [bind]; [|discriminate|discriminate].
        intros H. injection H as <-. eapply MC; [reflexivity|reflexivity|reflexivity].
      + intros H. injection H as <-. apply (MR (_, _)); reflexivity.
      + intros H. injection H as <-. apply MM. reflexivity.
      + intros H. injection H as <-. constructor.
    - assert (D : pool = true \/ pool = false) by (destruct pool; auto).
      destruct D as [EPO|EPO]; rewrite EPO; [intros H; injection H as <-; constructor|]. destruct (o_ask w r) as [t'|] eqn:EA.
      + destruct ((if t' then time_for_unit else buffer_utilization) (oq_stat (o_queue w 0))) as [x| |] eqn:EX; cbn [bind]; [|discriminate|discriminate].
        intros H. injection H as <-. apply om_report; assumption.
      + intros H. injection H as <-. apply om_ask; assumption.
    - intros H. injection H as <-. constructor.
  Qed.

  Definition pending_measure (pc : opc) : list (Z * Z) := match pc with OStat m => [m] | _ => [] end.
  Record oinv (w : oworld) : Prop := {
    j_len : forall q, length (oq_slots (o_queue w q)) = B;
    j_tail : forall q, oq_tail (o_queue w q) = accepted q (o_log w);
    j_head : forall q, oq_head (o_queue w q) = removed q (o_log w);
    j_le : forall q, (oq_head (o_queue w q) <= oq_tail (o_queue w q))%nat;
    j_pc : forall n, match o_pc w n with
                     | OCheck => (oq_head (o_queue w n) < oq_tail (o_queue w n))%nat
                     | OTake => (oq_head (o_queue w n) < oq_tail (o_queue w n))%nat /\ ofilled (oq_slots (o_queue w n)) (oq_head (o_queue w n) mod B)
                     | ORead i => ofilled (oq_slots (o_queue w n)) (i mod B)
                     | _ => True end;
    j_stat : forall n, exists l, measured n (o_log w) = l ++ pending_measure (o_pc w n) /\ length l = added n (o_log w) /\
                                 oq_stat (o_queue w n) = fold_left stat_push l []
  }.

  Lemma oinv_start progs : oinv (ostart B progs).
  Proof.
    split; cbn [ostart o_queue o_pc o_log oq_slots oq_tail oq_head oq_stat]; try reflexivity.
    - intros. apply repeat_length.
    - intros. exists []. repeat split.
  Qed.

  (** Steps that leave a queue's counters, statistics and worker alone. *)
  Lemma oinv_keep w w' : oinv w ->
    (forall q, oq_tail (o_queue w' q) = oq_tail (o_queue w q) /\ oq_head (o_queue w' q) = oq_head (o_queue w q) /\
               oq_stat (o_queue w' q) = oq_stat (o_queue w q) /\ length (oq_slots (o_queue w' q)) = length (oq_slots (o_queue w q)) /\
               forall i, ofilled (oq_slots (o_queue w q)) i -> ofilled (oq_slots (o_queue w' q)) i) ->
    (forall n, o_pc w' n = o_pc w n) ->
    (forall q, accepted q (o_log w') = accepted q (o_log w) /\ removed q (o_log w') = removed q (o_log w) /\
               measured q (o_log w') = measured q (o_log w) /\ added q (o_log w') = added q (o_log w)) -> oinv w'.
  Proof.
    intros I HQ HP HL. split.
    - intros q. destruct (HQ q) as (_ & _ & _ & E & _). rewrite E. apply (j_len w I).
    - intros q. destruct (HQ q) as (E & _). destruct (HL q) as (F & _). rewrite E, F. apply (j_tail w I).
    - intros q. destruct (HQ q) as (_ & E & _). destruct (HL q) as (_ & F & _). rewrite E, F. apply (j_head w I).
    - intros q. destruct (HQ q) as (E1 & E2 & _). rewrite E1, E2. apply (j_le w I).
    - intros n. rewrite HP. destruct (HQ n) as (E1 & E2 & _ & _ & FF). rewrite E1, E2. pose proof (j_pc w I n) as J.
      destruct (o_pc w n); auto. destruct J. split; auto.
    - intros n. rewrite HP. destruct (HQ n) as (_ & _ & E & _). destruct (HL n) as (_ & _ & F1 & F2). rewrite E, F1, F2. apply (j_stat w I).
  Qed.
  Ltac same_log := intros q'; unfold accepted, removed, added; rewrite ?count_snoc, ?measured_snoc, ?Nat.add_0_r, ?app_nil_r; repeat split.
  Lemma omove_inv w a w' : oinv w -> omove w a w' -> oinv w'.
  Proof.
    intros I M. destruct M.
    - exact I.
    - eapply oinv_keep; [exact I| |reflexivity|]; cbn [onote oput_push o_queue o_log]; [repeat split; auto|same_log].
    - eapply oinv_keep; [exact I| |reflexivity|]; cbn [onote oput_push o_queue o_log]; [repeat split; auto|same_log].
    - (* ticket *)
      split; cbn [onote oput_push oput_queue o_queue o_pc o_log]; intros q;
        match goal with |- context [set1 (o_queue w) mi ?x q] => destruct (set1_get (o_queue w) mi x q) as [(-> & ->)|[N ->]]
        | _ => idtac end; cbn [oq_slots oq_tail oq_head oq_stat].
      + apply (j_len w I). + apply (j_len w I).
      + unfold accepted. rewrite count_snoc, Nat.eqb_refl, <- (j_tail w I : forall q, _ = count _ _). lia.
      + unfold accepted. rewrite count_snoc. destruct (Nat.eqb_spec mi q); [congruence|]. rewrite Nat.add_0_r. apply (j_tail w I).
      + unfold removed. rewrite count_snoc, Nat.add_0_r. apply (j_head w I).
      + unfold removed. rewrite count_snoc, Nat.add_0_r. apply (j_head w I).
      + pose proof (j_le w I mi). lia.
      + apply (j_le w I).
      + pose proof (j_pc w I mi) as J. destruct (o_pc w mi); try exact J; try lia. destruct J. split; [lia|assumption].
      + apply (j_pc w I).
      + rewrite measured_snoc, app_nil_r. unfold added. rewrite count_snoc, Nat.add_0_r. apply (j_stat w I).
      + rewrite measured_snoc, app_nil_r. unfold added. rewrite count_snoc, Nat.add_0_r. apply (j_stat w I).
    - eapply oinv_keep; [exact I| |reflexivity|]; cbn [onote oput_push o_queue o_log]; [repeat split; auto|same_log].
    - eapply oinv_keep; [exact I| |reflexivity|]; cbn [onote oput_push o_queue o_log]; [repeat split; auto|same_log].
    - eapply oinv_keep; [exact I| |reflexivity|]; cbn [onote oput_push oput_queue o_queue o_log]; [|same_log].
      intros q'. destruct (set1_get (o_queue w) q (OQ (upd_nth (oq_slots (o_queue w q)) (i mod B)%nat (Some v)) (oq_tail (o_queue w q))
        (oq_head (o_queue w q)) (oq_stat (o_queue w q))) q') as [(-> & ->)|[N ->]]; cbn [oq_slots oq_tail oq_head oq_stat]; [|repeat split; auto].
      repeat split; [apply upd_len|]. intros j. apply ofilled_upd.
    - (* pc *)
      split; cbn [oput_pc o_queue o_pc o_log]; try apply I; intros x.
      + destruct (set1_get (o_pc w) n pc x) as [(-> & ->)|[N ->]]; [|apply (j_pc w I)].
        unfold onext in H1. pose proof (j_pc w I n) as J. destruct (o_pc w n); try contradiction.
        * subst pc. destruct (o_closed w); exact Logic.I.
        * destruct H1 as [[_ ->]|[_ ->]]; exact Logic.I.
        * destruct H1 as [[H1 ->]|[_ ->]]; [exact H1|exact Logic.I].
        * destruct H1 as [->|[H1 ->]]; [exact Logic.I|split; [exact J|exact H1]].
      + destruct (j_stat w I x) as (l & E1 & E2 & E3). exists l. rewrite E1. split; [|split; assumption]. f_equal.
        destruct (set1_get (o_pc w) n pc x) as [(-> & ->)|[N ->]]; [|reflexivity].
        unfold onext in H1. destruct (o_pc w n); try contradiction.
        * subst pc. destruct (o_closed w); reflexivity.
        * destruct H1 as [[_ ->]|[_ ->]]; reflexivity.
        * destruct H1 as [[_ ->]|[_ ->]]; reflexivity.
        * destruct H1 as [->|[_ ->]]; reflexivity.
    - (* take *)
      split; cbn [onote oput_pc oput_queue o_queue o_pc o_log]; intros q;
        match goal with |- context [set1 (o_queue w) n ?x q] => destruct (set1_get (o_queue w) n x q) as [(-> & ->)|[N ->]]
        | _ => idtac end; cbn [oq_slots oq_tail oq_head oq_stat].
      + apply (j_len w I). + apply (j_len w I).
      + unfold accepted. rewrite count_snoc, Nat.add_0_r. apply (j_tail w I).
      + unfold accepted. rewrite count_snoc, Nat.add_0_r. apply (j_tail w I).
      + unfold removed. rewrite count_snoc, Nat.eqb_refl, <- (j_head w I : forall q, _ = count _ _). lia.
      + unfold removed. rewrite count_snoc. rewrite (proj2 (Nat.eqb_neq n q)) by congruence. rewrite Nat.add_0_r. apply (j_head w I).
      + pose proof (j_pc w I n) as J. rewrite H1 in J. lia.
      + apply (j_le w I).
      + rewrite set1_same. pose proof (j_pc w I n) as J. rewrite H1 in J. apply J.
      + rewrite set1_other by exact N. apply (j_pc w I).
      + rewrite set1_same, measured_snoc, app_nil_r. unfold added. rewrite count_snoc, Nat.add_0_r. destruct (j_stat w I n) as (l & E).
        rewrite H1 in E. exists l. exact E.
      + rewrite set1_other, measured_snoc, app_nil_r by exact N. unfold added. rewrite count_snoc, Nat.add_0_r. apply (j_stat w I).
    - (* call *)
      split; cbn [onote oput_pc o_queue o_pc o_log]; intros q.
      + apply (j_len w I).
      + unfold accepted. rewrite count_snoc, Nat.add_0_r. apply (j_tail w I).
      + unfold removed. rewrite count_snoc, Nat.add_0_r. apply (j_head w I).
      + apply (j_le w I).
      + destruct (set1_get (o_pc w) n OCall q) as [(-> & ->)|[N ->]]; [exact Logic.I|apply (j_pc w I)].
      + rewrite measured_snoc, app_nil_r. unfold added. rewrite count_snoc, Nat.add_0_r.
        destruct (set1_get (o_pc w) n OCall q) as [(-> & ->)|[N ->]]; [|apply (j_stat w I)].
        destruct (j_stat w I n) as (l & E). rewrite H1 in E. exists l. exact E.
    - (* return *)
      split; cbn [onote oput_pc o_queue o_pc o_log]; intros q.
      + apply (j_len w I).
      + unfold accepted. rewrite count_snoc, Nat.add_0_r. apply (j_tail w I).
      + unfold removed. rewrite count_snoc, Nat.add_0_r. apply (j_head w I).
      + apply (j_le w I).
      + destruct (set1_get (o_pc w) n (OStat m) q) as [(-> & ->)|[N ->]]; [exact Logic.I|apply (j_pc w I)].
      + rewrite measured_snoc. unfold added. rewrite count_snoc, Nat.add_0_r.
        destruct (set1_get (o_pc w) n (OStat m) q) as [(-> & ->)|[N ->]].
        * destruct (j_stat w I n) as (l & E1 & E2 & E3). rewrite H1 in E1. cbn [pending_measure] in E1. rewrite app_nil_r in E1.
          exists l. rewrite E1, Nat.eqb_refl. destruct m. split; [reflexivity|]. split; assumption.
        * rewrite (proj2 (Nat.eqb_neq n q)) by congruence. rewrite app_nil_r. apply (j_stat w I).
    - (* measure *)
      split; cbn [onote oput_pc oput_queue o_queue o_pc o_log]; intros q;
        match goal with |- context [set1 (o_queue w) n ?x q] => destruct (set1_get (o_queue w) n x q) as [(-> & ->)|[N ->]]
        | _ => idtac end; cbn [oq_slots oq_tail oq_head oq_stat].
      + apply (j_len w I). + apply (j_len w I).
      + unfold accepted. rewrite count_snoc, Nat.add_0_r. apply (j_tail w I).
      + unfold accepted. rewrite count_snoc, Nat.add_0_r. apply (j_tail w I).
      + unfold removed. rewrite count_snoc, Nat.add_0_r. apply (j_head w I).
      + unfold removed. rewrite count_snoc, Nat.add_0_r. apply (j_head w I).
      + apply (j_le w I). + apply (j_le w I).
      + rewrite set1_same. exact Logic.I.
      + rewrite set1_other by exact N. apply (j_pc w I).
      + rewrite set1_same, measured_snoc, app_nil_r. unfold added. rewrite count_snoc, Nat.eqb_refl. destruct (j_stat w I n) as (l & E1 & E2 & E3).
        rewrite H1 in E1. exists (l ++ [m]). rewrite E1, E3, fold_left_app, app_length. cbn [pending_measure fold_left length]. rewrite app_nil_r.
        unfold added in E2. rewrite E2. repeat split.
      + rewrite set1_other, measured_snoc, app_nil_r by exact N. unfold added. rewrite count_snoc.
        rewrite (proj2 (Nat.eqb_neq n q)) by congruence. rewrite Nat.add_0_r. apply (j_stat w I).
    - eapply oinv_keep; [exact I| |reflexivity|]; cbn [onote oput_ask o_queue o_log]; [repeat split; auto|same_log].
    - eapply oinv_keep; [exact I| |reflexivity|]; cbn [onote oput_ask o_queue o_log]; [repeat split; auto|same_log].
    - eapply oinv_keep; [exact I| |reflexivity|]; cbn [o_queue o_log]; [repeat split; auto|same_log].
  Qed.
  Lemma orun_inv s : forall w w', oinv w -> orun w s = Ok w' -> oinv w'.
  Proof.
    induction s as [|a s IH]; intros w w' I; cbn [PoolModel.orun]; [intros H; injection H as <-; exact I|].
    destruct (ostep w a) as [w1| |] eqn:E; cbn [bind]; [|discriminate|discriminate]. apply IH. eapply omove_inv; [exact I|eapply ostep_moves, E].
  Qed.
  Lemma orun_snoc s a : forall w w', orun w (s ++ [a]) = Ok w' -> exists w1, orun w s = Ok w1 /\ ostep w1 a = Ok w'.
  Proof.
    induction s as [|b s IH]; intros w w'; cbn [app PoolModel.orun].
    - destruct (ostep w a) as [w1| |] eqn:E; cbn [bind]; [|discriminate|discriminate]. intros H. injection H as <-. exists w. split; [reflexivity|exact E].
    - destruct (ostep w b) as [w1| |]; cbn [bind]; [|discriminate|discriminate]. apply IH.
  Qed.

  (** ** what is recorded is right *)
  Lemma run_window l : fold_left stat_push l [] = last_ten l.
  Proof. exact (run_stat_window l). Qed.
  Lemma int_sum_value l acc c : int_sum acc l = Ok c -> c = acc + zsum l.
  Proof. intros H. destruct (int_sum_exact l acc) as [(E & _)|(E & _)]; rewrite E in H; [congruence|discriminate]. Qed.
  Lemma time_value l x : time_for_unit l = Ok x -> x = tenth (zsum (map fst l)).
  Proof.
    unfold time_for_unit. destruct (int_sum 0 (map fst l)) as [c| |] eqn:E; cbn [bind]; [|discriminate|discriminate].
    intros H. injection H as <-. apply int_sum_value in E. rewrite E, Z.add_0_l. reflexivity.
  Qed.
  Lemma load_value l x : buffer_utilization l = Ok x -> x = tenth (zsum (map snd l)).
  Proof.
    unfold buffer_utilization. destruct (int_sum 0 (map snd l)) as [c| |] eqn:E; cbn [bind]; [|discriminate|discriminate].
    intros H. injection H as <-. apply int_sum_value in E. rewrite E, Z.add_0_l. reflexivity.
  Qed.

  Definition right_event (l : list oev) (e : oev) : Prop :=
    match e with
    | ECall n _ id t u => id = Z.of_nat n /\ (n < oworkers)%nat /\ added n l = length (measured n l) /\ t = tenth (zsum (map fst (last_ten (measured n l)))) /\
                          u = tenth (zsum (map snd (last_ten (measured n l))))
    | EReturn n _ b => (removed n l <= accepted n l)%nat /\ b = to_int (Z.of_nat (waiting_in n l))
    | EReport _ time x =>
      x = tenth (zsum (map (if time then fst else snd) (last_ten (firstn (added 0 l) (measured 0 l)))))
    | _ => True
    end.
  Definition right_log (log : list oev) : Prop := forall l1 e l2, log = l1 ++ e :: l2 -> right_event l1 e.
  Lemma right_snoc log e : right_log log -> right_event log e -> right_log (log ++ [e]).
  Proof.
    intros H HE l1 x l2 E. destruct (exists_last (l := x :: l2)) as (l3 & y & E3); [discriminate|].
    rewrite E3, app_assoc in E. apply app_inj_tail in E. destruct E as [E ->]. destruct l3 as [|z l3].
    - cbn [app] in E3. injection E3 as <- _. rewrite app_nil_r in E. subst log. exact HE.
    - cbn [app] in E3. injection E3 as <- ->. eapply H. exact E.
  Qed.
  Lemma right_move w a w' : oinv w -> omove w a w' -> right_log (o_log w) -> right_log (o_log w').
  Proof.
    intros I M R. destruct M; cbn [onote oput_push oput_queue oput_pc oput_ask o_log]; try exact R; apply right_snoc; try exact R; try exact Logic.I.
    - destruct (j_stat w I n) as (l & E1 & E2 & E3). rewrite H1 in E1. cbn [pending_measure] in E1. rewrite app_nil_r in E1.
      rewrite E3, run_window, <- E1 in *. repeat split; [assumption|congruence|apply time_value|apply load_value]; assumption.
    - subst m. cbn [right_event fst snd]. rewrite <- (j_head w I), <- (j_tail w I). split; [apply (j_le w I)|].
      f_equal. unfold waiting_in. rewrite <- (j_head w I), <- (j_tail w I). pose proof (j_le w I n). lia.
    - destruct (j_stat w I 0%nat) as (l & E1 & E2 & E3). rewrite E3, run_window in H1.
      cbn [right_event]. rewrite E1, <- E2, firstn_app, Nat.sub_diag, firstn_O, app_nil_r, firstn_all.
      destruct t'; [apply time_value|apply load_value]; assumption.
  Qed.
  Lemma right_run s : forall w w', oinv w -> right_log (o_log w) -> orun w s = Ok w' -> right_log (o_log w').
  Proof.
    induction s as [|a s IH]; intros w w' I R; cbn [PoolModel.orun]; [intros H; injection H as <-; exact R|].
    destruct (ostep w a) as [w1| |] eqn:E; cbn [bind]; [|discriminate|discriminate]. apply ostep_moves in E.
    apply IH; [eapply omove_inv; eassumption|eapply right_move; eassumption].
  Qed.
  Lemma right_start progs : right_log (o_log (ostart B progs)).
  Proof. intros l1 e l2 E. destruct l1; discriminate E. Qed.
End Pool.
