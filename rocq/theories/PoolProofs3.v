(** One stage or pool in detail: schedules that choose badly, callers outside. *)
From Verif Require Import PipelineProofs1.
From Verif Require Export PoolProofs2.

Section Pool.
  Variable pool : bool.
  Variable size B : nat.
  Notation ostep := (ostep pool size B).
  Notation orun := (orun pool size B).
  Lemma orun_app s1 : forall w s2, orun w (s1 ++ s2) = bind (orun w s1) (fun w' => orun w' s2).
  Proof.
    induction s1 as [|a s1 IH]; intros w s2; cbn [PoolModel.orun app]; [reflexivity|].
    destruct (ostep w a) as [w1| |]; cbn [bind]; [apply IH|reflexivity|reflexivity].
  Qed.
  Lemma orun_then w s1 w1 s2 : orun w s1 = Ok w1 -> orun w (s1 ++ s2) = orun w1 s2.
  Proof. intros H. rewrite orun_app, H. reflexivity. Qed.
End Pool.

(** ** a pool *)
Section Scan.
  Variables size B : nat.
  Notation ostep := (ostep true size B).
  Notation orun := (orun true size B).

  Definition qsize (w : oworld) (i : nat) : Z := u64 (Z.of_nat (oq_tail (o_queue w i)) - Z.of_nat (oq_head (o_queue w i))).
  Fixpoint scan (f : nat -> Z) (c i : nat) (mn : Z) (mi : nat) : Z * nat :=
    match c with
    | O => (mn, mi)
    | S c => if f i <? mn then scan f c (S i) (f i) i else scan f c (S i) mn mi
    end.
  Lemma scan_spec f c : forall i mn mi,
    (forall j, (i <= j < i + c)%nat -> fst (scan f c i mn mi) <= f j) /\ fst (scan f c i mn mi) <= mn /\
    ((fst (scan f c i mn mi) = mn /\ snd (scan f c i mn mi) = mi) \/
     (i <= snd (scan f c i mn mi) < i + c)%nat /\ fst (scan f c i mn mi) = f (snd (scan f c i mn mi))).
  Proof.
    induction c as [|c IH]; intros i mn mi; cbn [scan].
    - split; [intros; lia|]. split; [cbn; lia|]. left. split; reflexivity.
    - destruct (Z.ltb_spec (f i) mn) as [L|L].
      + destruct (IH (S i) (f i) i) as (A & Bd & C). split; [|split; [lia|]].
        * intros j Hj. destruct (Nat.eq_dec j i) as [->|N]; [exact Bd|apply A; lia].
        * right. destruct C as [(C1 & C2)|(C1 & C2)]; [rewrite C1, C2; split; [lia|reflexivity]|split; [lia|exact C2]].
      + destruct (IH (S i) mn mi) as (A & Bd & C). split; [|split; [exact Bd|]].
        * intros j Hj. destruct (Nat.eq_dec j i) as [->|N]; [lia|apply A; lia].
        * destruct C as [C|(C1 & C2)]; [left; exact C|right; split; [lia|exact C2]].
  Qed.

  (** Only the position of pusher [k] differs. *)
  Definition moved (w : oworld) (k : nat) (p : pusher) (w' : oworld) : Prop :=
    o_queue w' = o_queue w /\ o_pc w' = o_pc w /\ o_ask w' = o_ask w /\ o_closed w' = o_closed w /\ o_log w' = o_log w /\
    o_push w' k = p /\ forall j, j <> k -> o_push w' j = o_push w j.
  Lemma moved_trans w k p w1 p2 w2 : moved w k p w1 -> moved w1 k p2 w2 -> moved w k p2 w2.
  Proof.
    intros (A1 & A2 & A3 & A4 & A5 & A6 & A7) (B1 & B2 & B3 & B4 & B5 & B6 & B7).
    repeat split; try congruence. intros j N. rewrite B7 by exact N. apply A7, N.
  Qed.
  Lemma moved_put w k p : moved w k p (oput_push w k p).
  Proof. repeat split; cbn [oput_push o_push]; [apply set1_same|intros j N; apply set1_other, N]. Qed.
  Lemma scan_run w k its c : forall i mn mi w0, (i + c <= 8)%nat -> o_queue w0 = o_queue w -> o_push w0 k = Pusher its (HScan i mn mi) ->
    exists w', orun w0 (repeat (OPush k true) (2 * c)) = Ok w' /\
      moved w0 k (Pusher its (HScan (i + c) (fst (scan (qsize w) c i mn mi)) (snd (scan (qsize w) c i mn mi)))) w'.
  Proof.
    induction c as [|c IH]; intros i mn mi w0 L EQ EP.
    - exists w0. split; [reflexivity|]. cbn [scan fst snd]. rewrite Nat.add_0_r. repeat split; auto.
    - replace (2 * S c)%nat with (S (S (2 * c))) by lia. cbn [repeat PoolModel.orun PoolModel.ostep bind].
      set (w1 := opush_step true B w0 k true).
      assert (M1 : moved w0 k (Pusher its (HHalf i mn mi true (oq_tail (o_queue w i)))) w1).
      { unfold w1, opush_step. rewrite EP. cbn [h_pc h_items oqueues]. rewrite (proj2 (Nat.ltb_lt i 8)) by lia. rewrite EQ. apply moved_put. }
      set (w2 := opush_step true B w1 k true).
      assert (M2 : moved w1 k (Pusher its (if qsize w i <? mn then HScan (S i) (qsize w i) i else HScan (S i) mn mi)) w2).
      { unfold w2, opush_step. destruct M1 as (A1 & _ & _ & _ & _ & A6 & _). rewrite A6, A1, EQ. cbn [h_pc h_items]. apply moved_put. }
      pose proof (moved_trans _ _ _ _ _ _ M1 M2) as M. pose proof M as (A1 & _ & _ & _ & _ & A6 & _). cbn [scan].
      destruct (Z.ltb_spec (qsize w i) mn) as [LT|LT].
      + destruct (IH (S i) (qsize w i) i w2 ltac:(lia) ltac:(congruence) A6) as (w' & R & M').
        exists w'. split; [exact R|]. replace (i + S c)%nat with (S i + c)%nat by lia. eapply moved_trans; eassumption.
      + destruct (IH (S i) mn mi w2 ltac:(lia) ltac:(congruence) A6) as (w' & R & M').
        exists w'. split; [exact R|]. replace (i + S c)%nat with (S i + c)%nat by lia. eapply moved_trans; eassumption.
  Qed.

  (** ** all at once *)
  Variable vs : list Z.
  Notation each_one := (one_each vs).
  Definition all_looking (m : nat) (w : oworld) : Prop :=
    o_queue w = o_queue (ostart B each_one) /\ (forall q, accepted q (o_log w) = 0%nat) /\
    forall k, o_push w k = Pusher (each_one k) (if (k <? m)%nat then HScan 8 0 0 else HIdle).
  Lemma all_look m : (m <= length vs)%nat -> exists s w, orun (ostart B each_one) s = Ok w /\ all_looking m w /\
    forall a, In a s -> exists k, (k < length vs)%nat /\ a = OPush k true.
  Proof.
    induction m as [|m IH]; intros L.
    - exists [], (ostart B each_one). split; [reflexivity|]. split; [repeat split|]. intros a [].
    - destruct (IH ltac:(lia)) as (s & w & R & (Q & A & P) & HS).
      destruct (nth_error vs m) as [v|] eqn:EV; [|apply nth_error_None in EV; lia].
      pose proof (P m) as PM. rewrite Nat.ltb_irrefl in PM. unfold one_each in PM at 1. rewrite EV in PM.
      set (w1 := opush_step true B w m true).
      assert (E1 : w1 = onote (oput_push w m (Pusher [v] (HScan 0 INT_MAX 0))) (EBegin m)) by (unfold w1, opush_step; rewrite PM; reflexivity).
      destruct (scan_run w m [v] 8 0 INT_MAX 0 w1) as (w2 & R2 & M2); [lia|rewrite E1; reflexivity|rewrite E1; cbn [onote oput_push o_push]; apply set1_same|].
      exists (s ++ OPush m true :: repeat (OPush m true) 16), w2. split; [|split].
      + rewrite (orun_then _ _ _ _ _ _ _ R). cbn [PoolModel.orun PoolModel.ostep bind]. exact R2.
      + destruct M2 as (B1 & _ & _ & _ & B5 & B6 & B7). split; [|split].
        * rewrite B1, E1. cbn [onote oput_push o_queue]. exact Q.
        * intros q. rewrite B5, E1. cbn [onote oput_push o_log]. unfold accepted. rewrite count_snoc. specialize (A q). unfold accepted in A. lia.
        * assert (SC : scan (qsize w) 8 0 INT_MAX 0 = (0, 0%nat)).
          { assert (Z0 : forall i, qsize w i = 0) by (intros i; unfold qsize; rewrite Q; reflexivity). cbn [scan]. rewrite !Z0. reflexivity. }
          rewrite SC in B6. intros k. destruct (Nat.eq_dec k m) as [->|N].
          -- rewrite B6, (proj2 (Nat.ltb_lt m (S m))) by lia. unfold one_each. rewrite EV. reflexivity.
          -- rewrite B7 by exact N. rewrite E1. cbn [onote oput_push o_push]. rewrite set1_other by exact N. rewrite P.
             destruct (Nat.ltb_spec k m), (Nat.ltb_spec k (S m)); try reflexivity; lia.
      + intros a H. apply in_app_or in H. destruct H as [H|[<-|H]]; [apply HS, H|exists m; split; [lia|reflexivity]|].
        apply repeat_spec in H. exists m. split; [lia|exact H].
  Qed.
  Lemma all_tickets w : all_looking (length vs) w -> forall m, (m <= length vs)%nat -> exists s w', orun w s = Ok w' /\
    (forall a, In a s -> exists k, (k < length vs)%nat /\ a = OPush k true) /\
    accepted 0 (o_log w') = m /\ (forall j, j <> 0%nat -> accepted j (o_log w') = 0%nat) /\
    forall k, (m <= k < length vs)%nat -> o_push w' k = Pusher (each_one k) (HScan 8 0 0).
  Proof.
    intros (Q & A & P) m. induction m as [|m IH]; intros L.
    - exists [], w. split; [reflexivity|]. split; [intros a []|]. split; [apply A|]. split; [intros; apply A|].
      intros k Hk. rewrite P, (proj2 (Nat.ltb_lt k (length vs))) by lia. reflexivity.
    - destruct (IH ltac:(lia)) as (s & w1 & R & HS & A0 & A1 & P1). pose proof (P1 m ltac:(lia)) as PM.
      destruct (nth_error vs m) as [v|] eqn:EV; [|apply nth_error_None in EV; lia].
      unfold one_each in PM. rewrite EV in PM.
      exists (s ++ [OPush m true]), (opush_step true B w1 m true). split; [|split; [|split; [|split]]].
      + rewrite (orun_then _ _ _ _ _ _ _ R). reflexivity.
      + intros a H. apply in_app_or in H. destruct H as [H|[<-|[]]]; [apply HS, H|exists m; split; [lia|reflexivity]].
      + unfold opush_step. rewrite PM. cbn [h_pc h_items oqueues onote oput_push oput_queue o_log Nat.ltb Nat.leb].
        unfold accepted in *. rewrite count_snoc, A0. cbn. lia.
      + intros j N. unfold opush_step. rewrite PM. cbn [h_pc h_items oqueues onote oput_push oput_queue o_log Nat.ltb Nat.leb].
        specialize (A1 j N). unfold accepted in *. rewrite count_snoc, A1. rewrite (proj2 (Nat.eqb_neq 0 j)) by congruence. reflexivity.
      + intros k Hk. unfold opush_step. rewrite PM. cbn [h_pc h_items oqueues onote oput_push oput_queue o_push Nat.ltb Nat.leb].
        rewrite set1_other by lia. apply P1. lia.
  Qed.
End Scan.

(** ** a wrapped difference *)
Section Wrap.
  Variables size B : nat.
  Hypothesis BP : (0 < B)%nat.
  Hypothesis SP : (8 <= size)%nat.
  Notation ostep := (ostep true size B).
  Notation orun := (orun true size B).
  Variable w : oworld.
  Hypothesis I : oinv B w.
  Variables a b : nat.
  Variables va vb : Z.
  Variables ra rb : list Z.
  Hypothesis AB : a <> b.
  Hypothesis PA : o_push w a = Pusher (va :: ra) HIdle.
  Hypothesis PB : o_push w b = Pusher (vb :: rb) HIdle.
  Hypothesis W7 : o_pc w 7 = OInner.
  Hypothesis E7 : waiting_in 7 (o_log w) = 0%nat.
  Hypothesis LO : forall j, (j < 7)%nat -> (0 < waiting_in j (o_log w))%nat /\ Z.of_nat (waiting_in j (o_log w)) < INT_MAX.

  Lemma size_of j : (j < 8)%nat -> qsize w j = Z.of_nat (waiting_in j (o_log w)).
  Proof.
    intros L. unfold qsize, waiting_in in *. rewrite (j_tail B w I), (j_head B w I). pose proof (j_le B w I j) as LE.
    rewrite (j_tail B w I), (j_head B w I) in LE.
    rewrite u64_id; [lia|]. change W64 with (2 ^ 64). destruct (Nat.eq_dec j 7) as [->|N]; [lia|].
    destruct (LO j ltac:(lia)) as [_ L2]. assert (INT_MAX < 2 ^ 64) by reflexivity. lia.
  Qed.
  Lemma wrapped : exists s w' q, orun w s = Ok w' /\ (q < 7)%nat /\
    o_log w' = o_log w ++ [EBegin a; EBegin b; ETicket b 7 vb; ETake 7; ETicket a q va].
  Proof.
    pose proof (j_tail B w I 7) as T7. pose proof (j_head B w I 7) as H7. pose proof (j_le B w I 7) as L7.
    unfold waiting_in in E7. assert (TH : oq_tail (o_queue w 7) = oq_head (o_queue w 7)) by lia.
    set (wa1 := opush_step true B w a true).
    assert (Ea1 : wa1 = onote (oput_push w a (Pusher (va :: ra) (HScan 0 INT_MAX 0))) (EBegin a)) by (unfold wa1, opush_step; rewrite PA; reflexivity).
    destruct (scan_run size B w a (va :: ra) 7 0 INT_MAX 0 wa1) as (wa2 & Ra & Ma);
      [lia|rewrite Ea1; reflexivity|rewrite Ea1; cbn [onote oput_push o_push]; apply set1_same|].
    destruct (scan_spec (qsize w) 7 0 INT_MAX 0) as (S1 & S2 & S3).
    set (mn := fst (scan (qsize w) 7 0 INT_MAX 0)) in *. set (mi := snd (scan (qsize w) 7 0 INT_MAX 0)) in *.
    assert (MI : (mi < 7)%nat /\ mn < INT_MAX).
    { destruct (LO 0%nat ltac:(lia)) as [_ L0]. pose proof (S1 0%nat ltac:(lia)) as S0. rewrite size_of in S0 by lia.
      destruct S3 as [(C1 & _)|(C1 & _)]; lia. }
    destruct Ma as (A1 & A2 & A3 & A4 & A5 & A6 & A7). rewrite Ea1 in A1, A2, A3, A4, A5, A7. cbn [onote oput_push o_queue o_pc o_ask o_closed o_log o_push] in A1, A2, A3, A4, A5, A7.
    cbn [Nat.add] in A6.
    (* a reads the tail of queue 7 *)
    set (wa3 := opush_step true B wa2 a true).
    assert (Ea3 : wa3 = oput_push wa2 a (Pusher (va :: ra) (HHalf 7 mn mi true (oq_tail (o_queue w 7))))).
    { unfold wa3, opush_step. rewrite A6, A1. reflexivity. }
    (* b *)
    set (wb1 := opush_step true B wa3 b true).
    assert (Eb1 : wb1 = onote (oput_push wa3 b (Pusher (vb :: rb) (HScan 0 INT_MAX 0))) (EBegin b)).
    { unfold wb1, opush_step. replace (o_push wa3 b) with (Pusher (vb :: rb) HIdle); [reflexivity|].
      rewrite Ea3. cbn [oput_push o_push]. rewrite set1_other by congruence. rewrite A7, set1_other by congruence. symmetry. exact PB. }
    destruct (scan_run size B w b (vb :: rb) 8 0 INT_MAX 0 wb1) as (wb2 & Rb & Mb);
      [lia|rewrite Eb1, Ea3; cbn [onote oput_push o_queue]; exact A1|rewrite Eb1; cbn [onote oput_push o_push]; apply set1_same|].
    destruct (scan_spec (qsize w) 8 0 INT_MAX 0) as (U1 & U2 & U3).
    set (mnb := fst (scan (qsize w) 8 0 INT_MAX 0)) in *.
    assert (MB : snd (scan (qsize w) 8 0 INT_MAX 0) = 7%nat).
    { pose proof (U1 7%nat ltac:(lia)) as U7. rewrite size_of in U7 by lia. unfold waiting_in in U7.
      assert (INT_MAX > 0) by reflexivity.
      destruct U3 as [(C1 & _)|(C1 & C2)]; [lia|]. destruct (Nat.eq_dec (snd (scan (qsize w) 8 0 INT_MAX 0)) 7) as [|N]; [assumption|].
      rewrite size_of in C2 by lia. destruct (LO (snd (scan (qsize w) 8 0 INT_MAX 0)) ltac:(lia)) as [L0 _]. unfold waiting_in in *. lia. }
    rewrite MB in Mb. destruct Mb as (B1 & B2 & B3 & B4 & B5 & B6 & B7).
    rewrite Eb1, Ea3 in B1, B2, B3, B4, B5, B7. cbn [onote oput_push o_queue o_pc o_ask o_closed o_log o_push] in B1, B2, B3, B4, B5, B7. cbn [Nat.add] in B6.
    rewrite A1 in B1. rewrite A2 in B2. rewrite A5 in B5.
    (* b gets its place and stores *)
    set (t := oq_tail (o_queue w 7)) in *.
    set (q1 := OQ (oq_slots (o_queue w 7)) (S t) (oq_head (o_queue w 7)) (oq_stat (o_queue w 7))).
    set (wb3 := opush_step true B wb2 b true).
    assert (Eb3 : wb3 = onote (oput_push (oput_queue wb2 7 q1) b (Pusher rb (HTicket 7 t vb))) (ETicket b 7 vb)).
    { unfold wb3, opush_step. rewrite B6, B1. reflexivity. }
    set (wb4 := opush_step true B wb3 b true).
    assert (Eb4 : wb4 = oput_push wb3 b (Pusher rb (HStoring 7 t vb))).
    { unfold wb4, opush_step. rewrite Eb3 at 1. cbn [onote oput_push o_push]. rewrite set1_same. cbn [h_pc].
      rewrite Eb3 at 2. cbn [onote oput_push o_push]. rewrite set1_same. reflexivity. }
    set (q2 := OQ (upd_nth (oq_slots (o_queue w 7)) (t mod B)%nat (Some vb)) (S t) (oq_head (o_queue w 7)) (oq_stat (o_queue w 7))).
    set (wb5 := opush_step true B wb4 b true).
    assert (Eb5 : wb5 = oput_push (oput_queue wb4 7 q2) b (Pusher rb HIdle)).
    { unfold wb5, opush_step. rewrite Eb4 at 1. cbn [oput_push o_push]. rewrite set1_same. cbn [h_pc].
      assert (Q7 : o_queue wb4 7 = q1) by (rewrite Eb4, Eb3; reflexivity). cbv zeta. rewrite Q7.
      rewrite Eb4 at 2. cbn [oput_push o_push]. rewrite set1_same. reflexivity. }
    assert (Q5 : o_queue wb5 7 = q2) by (rewrite Eb5; reflexivity).
    assert (P5 : o_pc wb5 = o_pc w) by (rewrite Eb5, Eb4, Eb3; cbn; exact B2).
    assert (LG5 : o_log wb5 = ((o_log w ++ [EBegin a]) ++ [EBegin b]) ++ [ETicket b 7 vb]) by (rewrite Eb5, Eb4, Eb3; cbn; rewrite B5; reflexivity).
    assert (U5 : o_push wb5 a = Pusher (va :: ra) (HHalf 7 mn mi true t)).
    { rewrite Eb5, Eb4, Eb3. cbn [onote oput_push oput_queue o_push]. rewrite !set1_other by congruence.
      rewrite B7 by congruence. rewrite set1_other by congruence. apply set1_same. }
    (* worker 7 *)
    assert (LT : (7 <? size)%nat = true) by (apply Nat.ltb_lt; lia).
    assert (W1 : ostep wb5 (OWork 7 0) = Ok (oput_pc wb5 7 OCheck)).
    { cbn [PoolModel.ostep oworkers oqueues]. rewrite LT. change (7 <? 8)%nat with true. cbv iota. unfold owork_step. rewrite P5, W7, Q5. cbn [oq_head oq_tail q2].
      rewrite (proj2 (Nat.ltb_lt _ _)) by lia. reflexivity. }
    assert (W2 : ostep (oput_pc wb5 7 OCheck) (OWork 7 0) = Ok (oput_pc (oput_pc wb5 7 OCheck) 7 OTake)).
    { cbn [PoolModel.ostep oworkers oqueues]. rewrite LT. change (7 <? 8)%nat with true. cbv iota. unfold owork_step. cbn [oput_pc o_pc o_queue]. rewrite set1_same, Q5.
      cbn [oq_slots oq_head q2]. rewrite <- TH, upd_same; [reflexivity|]. rewrite (j_len B w I). apply Nat.mod_upper_bound. lia. }
    set (wt := oput_pc (oput_pc wb5 7 OCheck) 7 OTake) in *.
    set (q3 := OQ (oq_slots q2) (S t) (S t) (oq_stat (o_queue w 7))).
    set (w3 := onote (oput_pc (oput_queue wt 7 q3) 7 (ORead t)) (ETake 7)).
    assert (W3 : ostep wt (OWork 7 0) = Ok w3).
    { cbn [PoolModel.ostep oworkers oqueues]. rewrite LT. change (7 <? 8)%nat with true. cbv iota. unfold owork_step.
      replace (o_pc wt 7) with OTake by reflexivity. replace (o_queue wt 7) with q2 by (symmetry; exact Q5). cbv zeta.
      cbn [oq_slots oq_tail oq_head oq_stat q2]. unfold w3, q3. rewrite <- TH. reflexivity. }
    assert (U3' : o_push w3 a = Pusher (va :: ra) (HHalf 7 mn mi true t)) by exact U5.
    set (w4 := opush_step true B w3 a true).
    assert (E4 : w4 = oput_push w3 a (Pusher (va :: ra) (HScan 8 mn mi))).
    { unfold w4, opush_step. rewrite U3'. cbn [h_pc h_items]. replace (o_queue w3 7) with q3 by reflexivity. cbn [oq_head oq_tail q3].
      replace (Z.of_nat t - Z.of_nat (S t)) with (-1) by lia. change (u64 (-1)) with (W64 - 1).
      assert (INT_MAX < W64 - 1) by reflexivity. rewrite (proj2 (Z.ltb_ge _ _)) by lia. reflexivity. }
    set (w5 := opush_step true B w4 a true).
    assert (L5 : o_log w5 = o_log w4 ++ [ETicket a mi va]).
    { unfold w5, opush_step. rewrite E4 at 1. cbn [oput_push o_push]. rewrite set1_same. cbn [h_pc oqueues Nat.ltb Nat.leb].
      rewrite E4 at 1. cbn [oput_push o_push]. rewrite set1_same. reflexivity. }
    exists ((OPush a true :: repeat (OPush a true) 14) ++ (OPush a true :: OPush b true :: repeat (OPush b true) 16) ++
            [OPush b true; OPush b true; OPush b true; OWork 7 0; OWork 7 0; OWork 7 0; OPush a true; OPush a true]), w5, mi.
    split; [|split; [apply MI|]].
    - rewrite (orun_then _ _ _ _ _ wa2) by (cbn [PoolModel.orun PoolModel.ostep bind]; exact Ra).
      rewrite (orun_then _ _ _ _ _ wb2) by (cbn [PoolModel.orun PoolModel.ostep bind]; exact Rb).
      assert (HW : orun wb5 ([OWork 7 0; OWork 7 0; OWork 7 0] ++ [OPush a true; OPush a true]) = Ok w5).
      { cbn [app]. change (OWork 7 0 :: OWork 7 0 :: OWork 7 0 :: [OPush a true; OPush a true]) with ([OWork 7 0] ++ [OWork 7 0] ++ [OWork 7 0] ++ [OPush a true; OPush a true]).
        assert (R1 : forall x y, ostep x (OWork 7 0) = Ok y -> orun x [OWork 7 0] = Ok y) by (intros x y E; cbn [PoolModel.orun]; rewrite E; reflexivity).
        rewrite (orun_then _ _ _ _ _ _ _ (R1 _ _ W1)), (orun_then _ _ _ _ _ _ _ (R1 _ _ W2)), (orun_then _ _ _ _ _ _ _ (R1 _ _ W3)). reflexivity. }
      exact HW.
    - rewrite L5, E4. unfold w3, wt. cbn [onote oput_push oput_pc oput_queue o_log]. rewrite LG5, <- !app_assoc. reflexivity.
  Qed.
End Wrap.

(** ** callers outside a stage *)
Section Ask.
  Variables size B : nat.
  Notation ostep := (ostep false size B).
  Notation orun := (orun false size B).

  Lemma inside_step w a w' : match a with OAsk _ _ => o_pc w 0 = OCall | OWork 0 _ => forall r, o_ask w r = None | _ => True end ->
    omove false size B w a w' -> ((exists r t, o_ask w r = Some t) -> o_pc w 0 = OCall) -> (exists r t, o_ask w' r = Some t) -> o_pc w' 0 = OCall.
  Proof.
    intros G M J. destruct M; cbn [onote oput_push oput_queue oput_pc oput_ask o_pc o_ask] in *; auto.
    all: try (assert (n = 0%nat) as -> by (cbn in H0; lia); intros (r & t0 & E); rewrite (G r) in E; discriminate).
  Qed.
  Lemma inside_run s : forall w w', asks_inside size B w s -> ((exists r t, o_ask w r = Some t) -> o_pc w 0 = OCall) ->
    orun w s = Ok w' -> (exists r t, o_ask w' r = Some t) -> o_pc w' 0 = OCall.
  Proof.
    induction s as [|a s IH]; intros w w' A J; cbn [PoolModel.orun]; [intros H; injection H as <-; exact J|].
    destruct (ostep w a) as [w1| |] eqn:ES; cbn [bind]; [|discriminate|discriminate].
    cbn [asks_inside] in A. destruct A as [A1 A2]. apply IH; [apply A2, ES|]. eapply inside_step; [exact A1|apply ostep_moves, ES|exact J].
  Qed.
End Ask.

(** ** calls and measurements *)
Section Calls.
  Variable pool : bool.
  Variable size B : nat.
  Notation ostep := (ostep pool size B).
  Notation orun := (orun pool size B).
  Definition calls_inv (w : oworld) : Prop :=
    forall n, calls n (o_log w) = (length (measured n (o_log w)) + match o_pc w n with OCall => 1 | _ => 0 end)%nat.
  Definition calls_right (l : list oev) (e : oev) : Prop :=
    match e with
    | ECall n _ _ _ _ => calls n l = length (measured n l)
    | EReturn n _ _ => calls n l = S (length (measured n l))
    | _ => True
    end.
  Lemma calls_move w a w' : calls_inv w -> omove pool size B w a w' -> calls_inv w'.
  Proof.
    intros I M. destruct M; intros nn; specialize (I nn); unfold calls in *;
      cbn [onote oput_push oput_queue oput_pc oput_ask o_log o_pc]; rewrite ?count_snoc, ?measured_snoc, ?app_length; cbn [length];
      rewrite ?Nat.add_0_r; try exact I.
    - unfold onext in H1. destruct (set1_get (o_pc w) n pc nn) as [(-> & ->)|[N ->]]; [|exact I].
      destruct (o_pc w n) eqn:EP; try contradiction.
      + subst pc. destruct (o_closed w); exact I.
      + destruct H1 as [[_ ->]|[_ ->]]; exact I.
      + destruct H1 as [[_ ->]|[_ ->]]; exact I.
      + destruct H1 as [->|[_ ->]]; exact I.
    - destruct (set1_get (o_pc w) n (ORead (oq_head (o_queue w n))) nn) as [(-> & ->)|[N ->]]; [|exact I]. rewrite H1 in I. exact I.
    - destruct (set1_get (o_pc w) n OCall nn) as [(-> & ->)|[N ->]].
      + rewrite H1 in I. rewrite Nat.eqb_refl. lia.
      + rewrite (proj2 (Nat.eqb_neq n nn)) by congruence. rewrite Nat.add_0_r. exact I.
    - destruct (set1_get (o_pc w) n (OStat m) nn) as [(-> & ->)|[N ->]].
      + rewrite H1 in I. rewrite Nat.eqb_refl. cbn [length]. lia.
      + rewrite (proj2 (Nat.eqb_neq n nn)) by congruence. cbn [length]. rewrite Nat.add_0_r. exact I.
    - destruct (set1_get (o_pc w) n OInner nn) as [(-> & ->)|[N ->]]; [|exact I]. rewrite H1 in I. exact I.
  Qed.
  Lemma calls_log w a w' : calls_inv w -> omove pool size B w a w' -> every calls_right (o_log w) -> every calls_right (o_log w').
  Proof.
    intros I M E. destruct M; cbn [onote oput_push oput_queue oput_pc oput_ask o_log]; try exact E; apply every_snoc; try exact E; try exact Logic.I.
    - cbn [calls_right]. rewrite (I n), H1. lia.
    - cbn [calls_right]. rewrite (I n), H1. lia.
  Qed.
  Lemma calls_run s : forall w w', calls_inv w -> every calls_right (o_log w) -> orun w s = Ok w' -> every calls_right (o_log w').
  Proof.
    induction s as [|a s IH]; intros w w' I E; cbn [PoolModel.orun]; [intros H; injection H as <-; exact E|].
    destruct (ostep w a) as [w1| |] eqn:ES; cbn [bind]; [|discriminate|discriminate]. apply ostep_moves in ES.
    apply IH; [eapply calls_move; eassumption|eapply calls_log; eassumption].
  Qed.
  Lemma calls_start progs : calls_inv (ostart B progs) /\ every calls_right (o_log (ostart B progs)).
  Proof. split; [intros n; reflexivity|]. intros l1 e l2 E. destruct l1; discriminate E. Qed.
End Calls.
Lemma to_int_small x : 0 <= x < 2 ^ 31 -> to_int x = x.
Proof. intros H. unfold to_int. rewrite Z.mod_small; lia. Qed.
Lemma to_int_wraps x : - 2 ^ 31 <= to_int x < 2 ^ 31 /\ (2 ^ 32 | x - to_int x).
Proof.
  unfold to_int. pose proof (Z.mod_pos_bound (x + 2 ^ 31) (2 ^ 32) ltac:(lia)). split; [lia|].
  exists ((x + 2 ^ 31) / 2 ^ 32). pose proof (Z.div_mod (x + 2 ^ 31) (2 ^ 32) ltac:(lia)). lia.
Qed.
Lemma app_own {A} (l m : list A) : l = l ++ m -> m = [].
Proof. intros E. apply (f_equal (@length A)) in E. rewrite app_length in E. destruct m; [reflexivity|cbn in E; lia]. Qed.
Lemma time_of pool size B w a w' n e b :
  ostep pool size B w a = Ok w' -> o_log w' = o_log w ++ [EReturn n e b] -> exists x, a = OWork n x /\ e = to_int x.
Proof.
  intros E L. destruct a as [k t|m x|r t|]; cbn [ostep] in E.
  - injection E as <-. exfalso. unfold opush_step in L.
    destruct (h_pc (o_push w k)); repeat (match type of L with context [match ?t with _ => _ end] => destruct t end);
      cbn in L; try (apply app_own in L; discriminate L); apply app_inv_head in L; discriminate L.
  - assert (G : owork_step B w m x = Ok w').
    { repeat (match type of E with (if ?c then _ else _) = _ => destruct c end); try discriminate E; [exact E|].
      injection E as <-. apply app_own in L. discriminate L. }
    clear E. unfold owork_step in G.
    destruct (o_pc w m);
      repeat (match type of G with
              | match ?t with _ => _ end = _ => destruct t; try discriminate G
              | bind ?t _ = _ => destruct t; cbn [bind] in G; try discriminate G end);
      injection G as <-; cbn in L; try (apply app_own in L; discriminate L); apply app_inv_head in L; try discriminate L.
    injection L as <- <- <-. eauto.
  - exfalso. repeat (match type of E with
              | match ?t with _ => _ end = _ => destruct t; try discriminate E
              | bind ?t _ = _ => destruct t; cbn [bind] in E; try discriminate E end);
      injection E as <-; cbn in L; try (apply app_own in L; discriminate L); apply app_inv_head in L; discriminate L.
  - injection E as <-. cbn in L. apply app_own in L. discriminate L.
Qed.
Lemma count_app f l1 l2 : count f (l1 ++ l2) = (count f l1 + count f l2)%nat.
Proof. unfold count. rewrite filter_app, app_length. reflexivity. Qed.
Lemma measured_app n l1 l2 : measured n (l1 ++ l2) = measured n l1 ++ measured n l2.
Proof. unfold measured. apply flat_map_app. Qed.
Lemma every_le (q : nat) l0 l1 : (forall j, (j < 8)%nat -> (waiting_in q l1 <= waiting_in j l0)%nat) -> (8 * waiting_in q l1 <= outstanding l0)%nat.
Proof.
  intros H. unfold outstanding. cbn [seq map list_sum fold_right].
  pose proof (H 0%nat ltac:(lia)). pose proof (H 1%nat ltac:(lia)). pose proof (H 2%nat ltac:(lia)). pose proof (H 3%nat ltac:(lia)).
  pose proof (H 4%nat ltac:(lia)). pose proof (H 5%nat ltac:(lia)). pose proof (H 6%nat ltac:(lia)). pose proof (H 7%nat ltac:(lia)). lia.
Qed.

(** For the example: only reader 0 asks. *)
Fixpoint insideb (size B : nat) (w : oworld) (s : list oagent) : bool :=
  match s with
  | [] => true
  | a :: rest =>
    match a with
    | OAsk r _ => ((r =? 0)%nat && match o_pc w 0 with OCall => true | _ => false end)%bool
    | OWork 0 _ => match o_ask w 0 with None => true | _ => false end
    | _ => true
    end && match ostep false size B w a with Ok w' => insideb size B w' rest | _ => true end
  end%bool.
Lemma insideb_sound size B s : forall w, (forall r, r <> 0%nat -> o_ask w r = None) -> insideb size B w s = true -> asks_inside size B w s.
Proof.
  induction s as [|a s IH]; intros w H0; cbn [insideb asks_inside]; [intros; exact Logic.I|].
  intros H. apply andb_prop in H. destruct H as [H1 H2]. split.
  - destruct a as [|[|n] e|r t|]; try exact Logic.I.
    + intros [|r]; [destruct (o_ask w 0); [discriminate|reflexivity]|apply H0; discriminate].
    + apply andb_prop in H1. destruct H1 as [_ H1]. destruct (o_pc w 0); (reflexivity || discriminate).
  - intros w' E. rewrite E in H2. apply IH; [|exact H2]. apply ostep_moves in E. intros r N.
    destruct E; cbn [onote oput_push oput_queue oput_pc oput_ask o_ask]; try (apply H0; exact N);
      rewrite set1_other; try (apply H0; exact N); apply andb_prop in H1; destruct H1 as [H1 _]; apply Nat.eqb_eq in H1; congruence.
Qed.
