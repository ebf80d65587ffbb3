(** One stage or pool in detail: the choice of the queue, callers outside. *)
From Verif Require Import PipelineProofs2.
From Verif Require Export PoolProofs1.

Lemma time_undefined l : time_for_unit l = UB -> leaves_int (map fst l).
Proof.
  unfold time_for_unit. destruct (int_sum_exact (map fst l) 0) as [(E & _)|(E & k & H & _)]; rewrite E; cbn [bind]; [discriminate|].
  intros _. exists k. exact H.
Qed.
Lemma load_undefined l : buffer_utilization l = UB -> leaves_int (map snd l).
Proof.
  unfold buffer_utilization. destruct (int_sum_exact (map snd l) 0) as [(E & _)|(E & k & H & _)]; rewrite E; cbn [bind]; [discriminate|].
  intros _. exists k. exact H.
Qed.
Lemma time_cases l : (exists x, time_for_unit l = Ok x) \/ time_for_unit l = UB.
Proof.
  unfold time_for_unit. destruct (int_sum_exact (map fst l) 0) as [(E & _)|(E & _)]; rewrite E; cbn [bind]; eauto.
Qed.
Lemma load_cases l : (exists x, buffer_utilization l = Ok x) \/ buffer_utilization l = UB.
Proof.
  unfold buffer_utilization. destruct (int_sum_exact (map snd l) 0) as [(E & _)|(E & _)]; rewrite E; cbn [bind]; eauto.
Qed.
Lemma zsum_bound b l : 0 <= b -> (forall x, In x l -> - b <= x <= b) -> - (b * Z.of_nat (length l)) <= zsum l <= b * Z.of_nat (length l).
Proof.
  intros Hb. induction l as [|x l IH]; intros H; cbn [zsum length]; [lia|].
  pose proof (H x (or_introl eq_refl)). rewrite Nat2Z.inj_succ. specialize (IH (fun y HY => H y (or_intror HY))). lia.
Qed.
Lemma small_sums l : (length l <= 10)%nat -> (forall x, In x l -> Z.abs x <= 214748364) -> ~ leaves_int l.
Proof.
  intros L H (k & N). apply N. pose proof (zsum_bound 214748364 (firstn k l) ltac:(lia)) as Z0.
  assert (HI : forall x, In x (firstn k l) -> - 214748364 <= x <= 214748364).
  { intros x HX. assert (In x l) by (rewrite <- (firstn_skipn k l); apply in_or_app; left; exact HX). pose proof (H x H0). lia. }
  specialize (Z0 HI). assert (L2 : (length (firstn k l) <= 10)%nat) by (rewrite firstn_length; lia).
  assert (2 ^ 31 = 2147483648) by reflexivity. nia.
Qed.

Section Pool.
  Variable pool : bool.
  Variable size B : nat.
  Hypothesis BP : (0 < B)%nat.
  Notation oqueues := (oqueues pool).
  Notation oworkers := (oworkers pool size).
  Notation ostep := (ostep pool size B).
  Notation orun := (orun pool size B).

  Lemma step_undefined w a : oinv B w ->
    (exists w', ostep w a = Ok w') \/
    (ostep w a = UB /\
     ((exists n e, a = OWork n e /\ (oqueues <= n)%nat /\ (n < oworkers)%nat) \/
      exists n, leaves_int (map fst (last_ten (firstn (added n (o_log w)) (measured n (o_log w))))) \/
                leaves_int (map snd (last_ten (firstn (added n (o_log w)) (measured n (o_log w))))))).
  Proof.
    intros I.
    assert (ST : forall n, oq_stat (o_queue w n) = last_ten (firstn (added n (o_log w)) (measured n (o_log w)))).
    { intros n. destruct (j_stat B w I n) as (l & E1 & E2 & E3). rewrite E3, E1, <- E2, firstn_app, Nat.sub_diag, firstn_O, app_nil_r, firstn_all.
      apply run_window. }
    destruct a as [k t|n e|r t|]; cbn [PoolModel.ostep].
    - left. eexists; reflexivity.
    - destruct (Nat.ltb_spec n oworkers) as [LW|]; [|left; eexists; reflexivity].
      destruct (Nat.ltb_spec n oqueues) as [LQ|LQ]; [|right; split; [reflexivity|left; exists n, e; auto]].
      pose proof (j_pc B w I n) as J. unfold owork_step. destruct (o_pc w n) as [ | | | | |i| |m| ] eqn:EP; cbv zeta; try (left; eexists; reflexivity).
      + destruct (nth_error (oq_slots (o_queue w n)) (oq_head (o_queue w n) mod B)) as [[v|]|] eqn:E; try (left; eexists; reflexivity).
        exfalso. apply nth_error_None in E. rewrite (j_len B w I) in E.
        pose proof (Nat.mod_upper_bound (oq_head (o_queue w n)) B). lia.
      + destruct J as (v & EV). rewrite EV.
        destruct (time_cases (oq_stat (o_queue w n))) as [(t & ET)|ET]; rewrite ET; cbn [bind].
        * destruct (load_cases (oq_stat (o_queue w n))) as [(u & EU)|EU]; rewrite EU; cbn [bind]; [left; eexists; reflexivity|].
          right. split; [reflexivity|]. right. exists n. right. rewrite <- ST. apply load_undefined, EU.
        * right. split; [reflexivity|]. right. exists n. left. rewrite <- ST. apply time_undefined, ET.
    - assert (D : pool = true \/ pool = false) by (destruct pool; auto).
      destruct D as [EPO|EPO]; rewrite EPO; [left; eexists; reflexivity|].
      destruct (o_ask w r) as [[|]|]; [| |left; eexists; reflexivity].
      + destruct (time_cases (oq_stat (o_queue w 0))) as [(x & EX)|EX]; rewrite EX; cbn [bind]; [left; eexists; reflexivity|].
        right. split; [reflexivity|]. right. exists 0%nat. left. rewrite <- ST. apply time_undefined, EX.
      + destruct (load_cases (oq_stat (o_queue w 0))) as [(x & EX)|EX]; rewrite EX; cbn [bind]; [left; eexists; reflexivity|].
        right. split; [reflexivity|]. right. exists 0%nat. right. rewrite <- ST. apply load_undefined, EX.
    - left. eexists; reflexivity.
  Qed.

  (** ** every event of a log *)
  Definition every (P : list oev -> oev -> Prop) (log : list oev) : Prop := forall l1 e l2, log = l1 ++ e :: l2 -> P l1 e.
  Lemma every_snoc P log e : every P log -> P log e -> every P (log ++ [e]).
  Proof.
    intros H HE l1 x l2 E. destruct (exists_last (l := x :: l2)) as (l3 & y & E3); [discriminate|].
    rewrite E3, app_assoc in E. apply app_inj_tail in E. destruct E as [E ->]. destruct l3 as [|z l3].
    - cbn [app] in E3. injection E3 as <- _. rewrite app_nil_r in E. subst log. exact HE.
    - cbn [app] in E3. injection E3 as <- ->. eapply H. exact E.
  Qed.
End Pool.

(** ** one thread pushing into a pool *)
Section One.
  Variables size B : nat.
  Variable progs : nat -> list Z.
  Variable k0 : nat.
  Hypothesis SMALL : Z.of_nat (length (progs k0)) < 2 ^ 64.
  Notation ostep := (ostep true size B).
  Notation orun := (orun true size B).
  Notation zwait q l := (Z.of_nat (waiting_in q l)).

  Definition calm (l0 log : list oev) : Prop :=
    (exists l1, log = l0 ++ EBegin k0 :: l1 /\ same_push k0 l1) /\
    forall q, accepted q log = accepted q l0 /\ (removed q l0 <= removed q log)%nat.
  Lemma calm_snoc l0 log e : calm l0 log -> match e with EBegin _ | ETicket _ _ _ => False | _ => True end -> calm l0 (log ++ [e]).
  Proof.
    intros [(l1 & E & S1) C] HE. split.
    - exists (l1 ++ [e]). split; [rewrite E, <- app_assoc; reflexivity|]. intros x HX. apply in_app_or in HX.
      destruct HX as [HX|[<-|[]]]; [apply S1, HX|]. destruct e; auto; contradiction.
    - intros q. destruct (C q) as [C1 C2]. split.
      + unfold accepted in *. rewrite count_snoc, C1. destruct e; try lia; contradiction.
      + unfold removed in *. rewrite count_snoc. lia.
  Qed.
  Definition scanning (w : oworld) (l0 : list oev) (i : nat) (mn : Z) (mi : nat) : Prop :=
    calm l0 (o_log w) /\ (i <= 8)%nat /\ (mi < 8)%nat /\ mn <= INT_MAX /\
    (forall j, (j < i)%nat -> mn <= zwait j l0) /\ (mn < INT_MAX -> zwait mi (o_log w) <= mn).
  Definition cinv (w : oworld) : Prop :=
    (forall j, j <> k0 -> o_push w j = Pusher [] HIdle) /\
    (forall q, (accepted q (o_log w) + length (h_items (o_push w k0)) <= length (progs k0))%nat) /\
    match h_pc (o_push w k0) with
    | HScan i mn mi => exists l0, scanning w l0 i mn mi
    | HHalf i mn mi t x =>
      exists l0, scanning w l0 i mn mi /\ (i < 8)%nat /\
        (t = true -> x = accepted i l0) /\ (t = false -> (removed i l0 <= x <= removed i (o_log w))%nat)
    | _ => True
    end.
  Definition chosen_well (l1 : list oev) (e : oev) : Prop :=
    match e with
    | ETicket k q v => k = k0 /\ (q < 8)%nat /\
      exists l0, calm l0 l1 /\
        ((exists j, (j < 8)%nat /\ zwait j l0 < INT_MAX) -> forall j, (j < 8)%nat -> (waiting_in q l1 <= waiting_in j l0)%nat)
    | _ => True
    end.
  Lemma cinv_start : one_pusher progs k0 -> cinv (ostart B progs).
  Proof.
    intros OP. split; [|split; [|exact Logic.I]]; cbn [ostart o_push o_log].
    - intros j N. rewrite (OP j N). reflexivity.
    - intros q. cbn. lia.
  Qed.
  Lemma wait_le l0 log q : calm l0 log -> (waiting_in q log <= waiting_in q l0)%nat.
  Proof. intros [_ C]. destruct (C q) as [C1 C2]. unfold waiting_in. rewrite C1. lia. Qed.

  (** Steps of workers, which at most record something that is not a push. *)
  Lemma cinv_worker w w' : cinv w -> o_push w' = o_push w ->
    (o_log w' = o_log w \/ exists e, o_log w' = o_log w ++ [e] /\ match e with EBegin _ | ETicket _ _ _ => False | _ => True end) -> cinv w'.
  Proof.
    intros (C1 & C2 & C3) EP EL. unfold cinv. rewrite EP.
    assert (A : forall q, accepted q (o_log w') = accepted q (o_log w)).
    { destruct EL as [->|(e & -> & HE)]; [reflexivity|]. intros q. unfold accepted. rewrite count_snoc. destruct e; try lia; contradiction. }
    assert (R : forall q, (removed q (o_log w) <= removed q (o_log w'))%nat).
    { destruct EL as [->|(e & -> & HE)]; [reflexivity|]. intros q. unfold removed. rewrite count_snoc. lia. }
    assert (SC : forall l0 i mn mi, scanning w l0 i mn mi -> scanning w' l0 i mn mi).
    { intros l0 i mn mi (S1 & S2 & S3 & S4 & S5 & S6).
      assert (CA : calm l0 (o_log w')) by (destruct EL as [->|(e & -> & HE)]; [exact S1|apply calm_snoc; assumption]).
      repeat (split; [assumption|]). intros L. specialize (S6 L). pose proof (R mi). unfold waiting_in in *. rewrite (A mi). lia. }
    split; [exact C1|]. split; [intros q; rewrite A; apply C2|].
    destruct (h_pc (o_push w k0)) as [|i mn mi|i mn mi t x|q i v|q i v]; auto.
    - destruct C3 as (l0 & S0). exists l0. apply SC, S0.
    - destruct C3 as (l0 & S0 & L & X1 & X2). exists l0. split; [apply SC, S0|]. split; [exact L|]. split; [exact X1|].
      intros T. specialize (X2 T). pose proof (R i). lia.
  Qed.
  Lemma cinv_move w a w' : oinv B w -> cinv w -> omove true size B w a w' -> cinv w'.
  Proof.
    intros I C M. pose proof C as C0. destruct C as (C1 & C2 & C3). destruct M.
    - exact C0.
    - (* begin *)
      assert (k = k0) as -> by (destruct (Nat.eq_dec k k0) as [|N]; [assumption|rewrite (C1 k N) in H0; exfalso; apply H0; reflexivity]).
      unfold cinv. cbn [onote oput_push o_push o_log]. rewrite set1_same. cbn [h_items h_pc]. split; [|split].
      + intros j N. rewrite set1_other by exact N. apply C1, N.
      + intros q. unfold accepted. rewrite count_snoc, Nat.add_0_r. apply C2.
      + exists (o_log w). split; [|split; [lia|split; [lia|split; [lia|split; [lia|lia]]]]]. split.
        * exists []. split; [reflexivity|]. intros x [].
        * intros q. cbn [onote o_log]. unfold accepted, removed. rewrite !count_snoc. cbn [oput_push o_log]. lia.
    - (* half *)
      assert (k = k0) as -> by (destruct (Nat.eq_dec k k0) as [|N]; [assumption|rewrite (C1 k N) in H; discriminate]).
      rewrite H in C3. destruct C3 as (l0 & S0). unfold cinv. cbn [oput_push o_push o_log]. rewrite set1_same. cbn [h_items h_pc].
      split; [intros j N; rewrite set1_other by exact N; apply C1, N|]. split; [exact C2|].
      exists l0. split; [exact S0|]. split; [exact H0|]. destruct S0 as ([_ CA] & _). destruct (CA i) as [CA1 CA2]. split; intros ->.
      + rewrite (j_tail B w I). exact CA1.
      + rewrite (j_head B w I). lia.
    - (* ticket *)
      assert (k = k0) as -> by (destruct (Nat.eq_dec k k0) as [|N]; [assumption|rewrite (C1 k N) in H; discriminate]).
      unfold cinv. cbn [onote oput_push oput_queue o_push o_log]. rewrite set1_same. cbn [h_items h_pc].
      split; [intros j N; rewrite set1_other by exact N; apply C1, N|]. split; [|exact Logic.I].
      intros q. specialize (C2 q). rewrite H in C2. cbn [h_items length] in C2. unfold accepted in *. rewrite count_snoc. destruct (mi =? q)%nat; lia.
    - (* look *)
      assert (k = k0) as -> by (destruct (Nat.eq_dec k k0) as [|N]; [assumption|rewrite (C1 k N) in H; discriminate]).
      rewrite H in C3. destruct C3 as (l0 & S0 & L & X1 & X2). unfold cinv. cbn [oput_push o_push o_log]. rewrite set1_same. cbn [h_items h_pc].
      split; [intros j N; rewrite set1_other by exact N; apply C1, N|]. split; [exact C2|].
      destruct S0 as (CA & S2 & S3 & S4 & S5 & S6). pose proof CA as [_ CA']. destruct (CA' i) as [CA1 CA2].
      pose proof (j_tail B w I i) as T. pose proof (j_head B w I i) as HH. pose proof (j_le B w I i) as LE.
      pose proof (C2 i) as C2i. 
      assert (SZ : zwait i (o_log w) <= sz <= zwait i l0).
      { assert (SE : sz = (if t' then Z.of_nat x - Z.of_nat (oq_head (o_queue w i)) else Z.of_nat (oq_tail (o_queue w i)) - Z.of_nat x)).
        { subst sz. apply u64_id. change W64 with (2 ^ 64). destruct t'; [rewrite (X1 eq_refl) in *; lia|specialize (X2 eq_refl); lia]. }
        unfold waiting_in. destruct t'; [rewrite (X1 eq_refl) in *; lia|specialize (X2 eq_refl); lia]. }
      destruct (Z.ltb_spec sz mn) as [LT|LT]; cbn [h_pc]; exists l0; (split; [exact CA|]).
      + split; [lia|]. split; [lia|]. split; [lia|]. split; [|cbn [oput_push o_log]; lia].
        intros j Hj. destruct (Nat.eq_dec j i) as [->|N]; [lia|]. specialize (S5 j ltac:(lia)). lia.
      + split; [lia|]. split; [lia|]. split; [lia|]. split; [|exact S6].
        intros j Hj. destruct (Nat.eq_dec j i) as [->|N]; [lia|]. apply S5. lia.
    - assert (k = k0) as -> by (destruct (Nat.eq_dec k k0) as [|N]; [assumption|rewrite (C1 k N) in H; discriminate]).
      unfold cinv. cbn [oput_push o_push o_log]. rewrite set1_same. cbn [h_items h_pc].
      split; [intros j N; rewrite set1_other by exact N; apply C1, N|]. split; [exact C2|exact Logic.I].
    - assert (k = k0) as -> by (destruct (Nat.eq_dec k k0) as [|N]; [assumption|rewrite (C1 k N) in H; discriminate]).
      unfold cinv. cbn [oput_push oput_queue o_push o_log]. rewrite set1_same. cbn [h_items h_pc].
      split; [intros j N; rewrite set1_other by exact N; apply C1, N|]. split; [exact C2|exact Logic.I].
    - eapply cinv_worker; [exact C0|reflexivity|left; reflexivity].
    - eapply cinv_worker; [exact C0|reflexivity|right; eexists; split; [reflexivity|exact Logic.I]].
    - eapply cinv_worker; [exact C0|reflexivity|right; eexists; split; [reflexivity|exact Logic.I]].
    - eapply cinv_worker; [exact C0|reflexivity|right; eexists; split; [reflexivity|exact Logic.I]].
    - eapply cinv_worker; [exact C0|reflexivity|right; eexists; split; [reflexivity|exact Logic.I]].
    - discriminate.
    - discriminate.
    - eapply cinv_worker; [exact C0|reflexivity|left; reflexivity].
  Qed.
  Lemma chosen_move w a w' : cinv w -> omove true size B w a w' -> every chosen_well (o_log w) -> every chosen_well (o_log w').
  Proof.
    intros (C1 & C2 & C3) M E. destruct M; cbn [onote oput_push oput_queue oput_pc oput_ask o_log]; try exact E; apply every_snoc; try exact E; try exact Logic.I.
    assert (k = k0) as -> by (destruct (Nat.eq_dec k k0) as [|N]; [assumption|rewrite (C1 k N) in H; discriminate]).
    rewrite H in C3. cbn [h_pc] in C3. destruct C3 as (l0 & CA & S2 & S3 & S4 & S5 & S6). cbn [PoolModel.oqueues] in H0.
    split; [reflexivity|]. split; [exact S3|]. exists l0. split; [exact CA|]. intros (j0 & L0 & W0) j Lj.
    pose proof (S5 j0 ltac:(lia)). pose proof (S5 j ltac:(lia)). lia.
  Qed.
  Lemma chosen_run s : forall w w', oinv B w -> cinv w -> every chosen_well (o_log w) -> orun w s = Ok w' -> every chosen_well (o_log w').
  Proof.
    induction s as [|a s IH]; intros w w' I C E; cbn [PoolModel.orun]; [intros H; injection H as <-; exact E|].
    destruct (ostep w a) as [w1| |] eqn:ES; cbn [bind]; [|discriminate|discriminate]. apply ostep_moves in ES.
    apply IH; [eapply omove_inv; eassumption|eapply cinv_move; eassumption|eapply chosen_move; eassumption].
  Qed.
End One.
