(** Networks of stages and pools: every item once, while the queues have room. *)
From Verif Require Export FlowProofs2.
From Coq Require Import FinFun.

(** ** a list sorted by keys *)
Lemma flat_map_plus {A K} (f g : K -> list A) keys :
  Permutation (flat_map (fun k => f k ++ g k) keys) (flat_map f keys ++ flat_map g keys).
Proof.
  induction keys as [|k keys IH]; cbn [flat_map]; [constructor|]. rewrite IH, <- !app_assoc. apply Permutation_app_head.
  rewrite !app_assoc. apply Permutation_app_tail. apply Permutation_app_comm.
Qed.
Lemma flat_map_nil {A K} (f : K -> list A) keys : (forall k, In k keys -> f k = []) -> flat_map f keys = [].
Proof.
  induction keys as [|k keys IH]; intros H; cbn [flat_map]; [reflexivity|]. rewrite (H k (or_introl eq_refl)). apply IH.
  intros k' HI. apply H. right. exact HI.
Qed.
Lemma flat_map_one {A K} (f : K -> list A) keys k : NoDup keys -> In k keys ->
  (forall k', In k' keys -> k' <> k -> f k' = []) -> flat_map f keys = f k.
Proof.
  induction keys as [|k0 keys IH]; intros ND HI H; [destruct HI|]. inversion ND as [|? ? NI ND']; subst. cbn [flat_map].
  destruct HI as [->|HI].
  - rewrite flat_map_nil, app_nil_r; [reflexivity|]. intros k' HI. apply H; [right; exact HI|]. intros ->. contradiction.
  - rewrite (H k0); [|left; reflexivity|intros ->; contradiction]. apply IH; [exact ND'|exact HI|].
    intros k' HI' N. apply H; [right; exact HI'|exact N].
Qed.
Lemma gather {E A K} (keys : list K) (hit : K -> E -> list A) (all : E -> list A) log : NoDup keys ->
  (forall e, In e log -> (all e = [] /\ forall k, In k keys -> hit k e = []) \/
     exists k, In k keys /\ hit k e = all e /\ forall k', In k' keys -> k' <> k -> hit k' e = []) ->
  Permutation (flat_map all log) (flat_map (fun k => flat_map (hit k) log) keys).
Proof.
  intros ND. induction log as [|e log IH]; intros H; cbn [flat_map].
  { rewrite flat_map_nil; [constructor|reflexivity]. }
  rewrite (flat_map_plus (fun k => hit k e) (fun k => flat_map (hit k) log)), <- IH by (intros e' HI; apply H; right; exact HI).
  apply Permutation_app_tail. destruct (H e (or_introl eq_refl)) as [[E1 E2]|(k & HI & E1 & E2)].
  - rewrite E1, (flat_map_nil _ _ E2). constructor.
  - rewrite (flat_map_one (fun k => hit k e) keys k ND HI E2), E1. reflexivity.
Qed.
Lemma Permutation_for_node m l l' : Permutation l l' -> Permutation (for_node m l) (for_node m l').
Proof.
  intros H. unfold for_node. apply Permutation_map. induction H; cbn [filter].
  - constructor.
  - destruct (_ =? _)%nat; [constructor|]; assumption.
  - destruct (fst y =? m)%nat, (fst x =? m)%nat; try reflexivity. constructor.
  - etransitivity; eassumption.
Qed.
Lemma for_node_app m l1 l2 : for_node m (l1 ++ l2) = for_node m l1 ++ for_node m l2.
Proof. unfold for_node. rewrite filter_app, map_app. reflexivity. Qed.
Lemma firstn_snoc {A} (l : list A) n x : nth_error l n = Some x -> firstn (S n) l = firstn n l ++ [x].
Proof.
  revert n. induction l as [|y l IH]; intros [|n] H; try discriminate; cbn [nth_error] in H.
  - injection H as ->. reflexivity.
  - cbn [firstn app]. f_equal. apply IH, H.
Qed.

Section Flow.
  Variable nodes : list kind.
  Variable B : nat -> nat.
  Variable func : list fev -> nat -> Z -> list (nat * Z).
  Hypothesis BP : forall m, (0 < B m)%nat.
  Variable progs : nat -> list (nat * Z).
  Notation kind_of := (kind_of nodes).
  Notation gone := (gone nodes).
  Notation fstep := (fstep nodes B func).
  Notation frun := (frun nodes B func).
  Notation move := (move nodes B func).
  Notation finv := (finv nodes B progs).
  Notation aimed := (aimed nodes func).

  (** ** what is in the slots, and what was called *)
  Definition vinv (w : fworld) : Prop := fits B w ->
    (forall m q i v, nth_error (fq_slots (f_queue w m q)) i = Some (Some v) -> nth_error (in_queue m q (f_log w)) i = Some v) /\
    (forall m n, called_by m n (f_log w) = firstn (length (called_by m n (f_log w))) (in_queue m n (f_log w))).
  Lemma vinv_start : vinv (fstart B progs).
  Proof.
    intros _. cbn [fstart f_queue f_log fq_slots]. split; [|reflexivity]. intros m q i v H. exfalso.
    assert (HI : In (Some v) (repeat (@None Z) (B m))) by (eapply nth_error_In, H). apply repeat_spec in HI. discriminate.
  Qed.
  Lemma prefix_keep {A} (l m k : list A) : l = firstn (length l) m -> (length l <= length m)%nat -> l = firstn (length l) (m ++ k).
  Proof. intros E L. rewrite firstn_app. replace (length l - length m)%nat with 0%nat by lia. rewrite firstn_O, app_nil_r. exact E. Qed.
  Lemma called_le w m n : finv w -> (length (called_by m n (f_log w)) <= length (in_queue m n (f_log w)))%nat.
  Proof.
    intros I. pose proof (i_head _ _ _ _ I m n) as H. rewrite (i_tail _ _ _ _ I) in H. pose proof (i_work _ _ _ _ I m n) as G.
    unfold wgood' in G. destruct (f_pc w m n); try lia.
  Qed.
  Lemma vinv_move w w' : finv w -> move w w' -> vinv w -> vinv w'.
  Proof.
    intros I M V F'. pose proof (fits_before B func w w' (move_log _ _ _ _ _ M) F') as F. specialize (V F). destruct V as [V1 V2].
    destruct M as [|src m v rest j AC ES G L LJ|src m j i v AC ES G|src m j i v AC ES G|m n pc IN NP|m n IN EP|m n i v IN EP EV|m];
      cbn [fnote put_pc put_queue put_send f_queue f_log]; try (split; assumption).
    - split.
      + intros a q i x H. assert (H' : nth_error (fq_slots (f_queue w a q)) i = Some (Some x)).
        { match type of H with context[set2 ?f ?p ?r ?z a q] => destruct (set2_get f p r z a q) as [(-> & -> & E)|[N E]] end; rewrite E in H; exact H. }
        apply V1 in H'. rewrite in_queue_snoc, nth_error_app1; [exact H'|]. apply nth_lt in H'. exact H'.
      + intros a n. rewrite called_by_snoc, app_nil_r, in_queue_snoc. apply prefix_keep; [apply V2|apply called_le, I].
    - split; [|exact V2]. intros a q k x H.
      match type of H with context[set2 ?f ?p ?r ?z a q] => destruct (set2_get f p r z a q) as [(-> & -> & E)|[N E]] end;
        rewrite E in H; [|apply V1, H]. cbn [fq_slots] in H.
      assert (HN : nth_error (in_queue m j (f_log w)) i = Some v) by (eapply (i_hold _ _ _ _ I src); right; exact ES).
      assert (LB : (i < B m)%nat) by (pose proof (nth_lt _ _ _ HN); pose proof (F m j); lia). rewrite Nat.mod_small in H by exact LB.
      destruct (Nat.eq_dec i k) as [->|N].
      + rewrite upd_same in H by (rewrite (i_len _ _ _ _ I); exact LB). injection H as <-. exact HN.
      + rewrite upd_other in H by exact N. apply V1, H.
    - split; [|exact V2]. intros a q k x H. apply V1.
      match type of H with context[set2 ?f ?p ?r ?z a q] => destruct (set2_get f p r z a q) as [(-> & -> & E)|[N E]] end; rewrite E in H; exact H.
    - pose proof (i_work _ _ _ _ I m n) as G. unfold wgood' in G. rewrite EP in G. destruct G as (G1 & G2 & _).
      pose proof (i_head _ _ _ _ I m n) as HH. rewrite (i_tail _ _ _ _ I m n) in HH.
      assert (QE : forall a b, in_queue a b (f_log w ++ [FCall m n v (func (f_log w) m v)]) = in_queue a b (f_log w))
        by (intros; rewrite in_queue_snoc; apply app_nil_r).
      split; [intros a q k x H; rewrite QE; apply V1, H|]. intros a b. rewrite QE, called_by_snoc.
      destruct (pair_case m a n b [v] []) as [(<- & <- & ->)|[_ ->]]; [|rewrite app_nil_r; apply V2].
      rewrite app_length. cbn [length]. rewrite Nat.add_1_r.
      assert (LB : (i < B m)%nat) by (pose proof (F m n); lia). rewrite Nat.mod_small in EV by exact LB. apply V1 in EV.
      rewrite <- G2. rewrite (firstn_snoc _ _ _ EV). rewrite G2, <- V2. reflexivity.
  Qed.
  Lemma run_vinv s : forall w w', finv w -> vinv w -> frun w s = Ok w' -> vinv w'.
  Proof.
    induction s as [|a s IH]; intros w w' I V; cbn [FlowModel.frun].
    - intros H. injection H as <-. exact V.
    - destruct (fstep w a) as [w1| |] eqn:E; cbn [bind]; [|discriminate|discriminate].
      apply IH; [eapply step_inv; eassumption|eapply vinv_move; [exact I|eapply step_moves, E|exact V]].
  Qed.

  (** ** ended workers have emptied their queues *)
  Definition dinv (w : fworld) : Prop := forall m n, inside nodes m n ->
    match f_pc w m n with
    | WOuter2 => f_closed w m = true
    | WDone => f_closed w m = true /\ fq_head (f_queue w m n) = fq_tail (f_queue w m n)
    | _ => True
    end.
  Lemma dinv_start : dinv (fstart B progs).
  Proof. intros m n _. exact I. Qed.
  Lemma dinv_move w w' : (forall m, feeds func m m -> kind_of m = Stage) -> aimed w -> move w w' -> dinv w -> dinv w'.
  Proof.
    intros SF (A1 & A2 & A3 & A4 & A5) M D a b IA. specialize (D a b IA).
    destruct M as [|src m v rest j AC ES G L LJ|src m j i v AC ES G|src m j i v AC ES G|m n pc IN NP|m n IN EP|m n i v IN EP EV|m];
      cbn [fnote put_pc put_queue put_send f_queue f_log f_pc f_closed]; try exact D.
    - match goal with |- context[set2 ?f ?p ?r ?z a b] => destruct (set2_get f p r z a b) as [(-> & -> & E)|[N E]] end; rewrite E; [|exact D].
      cbn [fq_head fq_tail]. destruct (f_pc w m j) eqn:EP; try exact D. exfalso. destruct D as [C _]. destruct (A1 m C) as [Q1 Q2].
      destruct src as [k|x y].
      + specialize (Q2 k). rewrite ES in Q2. apply through_cons in Q2. destruct Q2 as [Q2 _]. congruence.
      + assert (FD : feeds func x m) by (apply (A3 x y m v); rewrite ES; left; reflexivity). destruct AC as [(X1 & X2 & X3) EC].
        destruct (Nat.eq_dec x m) as [->|NX].
        * rewrite (SF m FD) in *. cbn [workers_of queues_of] in *. assert (y = j) by lia. congruence.
        * destruct (gone_spec nodes w x X1 (Q1 x X1 NX FD)) as [_ DN]. rewrite DN in EC by exact X2. discriminate.
    - match goal with |- context[set2 ?f ?p ?r ?z a b] => destruct (set2_get f p r z a b) as [(-> & -> & E)|[N E]] end; rewrite E; exact D.
    - destruct (set2_get (f_pc w) m n pc a b) as [(-> & -> & E)|[N E]]; rewrite E; [|exact D]. unfold next_pc in NP.
      destruct (f_pc w m n) as [ | | | | |i| | ] eqn:EP.
      + subst pc. destruct (f_closed w m); exact I || reflexivity.
      + destruct NP as [[H ->]|[_ ->]]; [|exact I]. split; [exact D|congruence].
      + destruct NP as [[_ ->]|[_ ->]]; exact I.
      + destruct NP as [[_ ->]|[_ ->]]; exact I.
      + destruct NP.
      + destruct NP.
      + destruct NP as [_ ->]. exact I.
      + destruct NP.
    - destruct (Nat.eq_dec a m) as [->|N1]; [destruct (Nat.eq_dec b n) as [->|N2]|].
      + rewrite !set2_same. exact I.
      + rewrite !set2_other by (intros [_ ?]; auto). exact D.
      + rewrite !set2_other by (intros [? _]; auto). exact D.
    - destruct (set2_get (f_pc w) m n WCall a b) as [(-> & -> & E)|[N E]]; rewrite E; [exact I|exact D].
    - destruct (a =? m)%nat; [|exact D]. destruct (f_pc w a b); try exact I; try reflexivity. split; [reflexivity|apply D].
  Qed.
  Lemma run_dinv s : (forall m, feeds func m m -> kind_of m = Stage) -> (forall log m v, within nodes (func log m v)) ->
    forall w w', aimed w -> dinv w -> feeders_first nodes B func w s -> frun w s = Ok w' -> dinv w'.
  Proof.
    intros SF WF. induction s as [|a s IH]; intros w w' A D FF; cbn [FlowModel.frun].
    - intros H. injection H as <-. exact D.
    - destruct FF as [TN FF]. destruct (fstep w a) as [w1| |] eqn:E; cbn [bind]; [|discriminate|discriminate].
      apply IH; [eapply aimed_step; eassumption|eapply dinv_move; [exact SF|exact A|eapply step_moves, E|exact D]|apply FF; reflexivity].
  Qed.

  (** ** summing up *)
  Definition pushes (log : list fev) : list (nat * Z) :=
    flat_map (fun e => match e with FPush _ m _ v => [(m, v)] | _ => [] end) log.
  Definition worker_keys : list source := map (fun j => Worker (j / 8) (j mod 8)) (seq 0 (8 * length nodes)).
  Lemma worker_keys_nodup : NoDup worker_keys.
  Proof.
    apply Injective_map_NoDup; [|apply seq_NoDup]. intros x y E.
    assert (E1 : (x / 8 = y / 8)%nat) by exact (f_equal (fun s => match s with Worker m _ => m | _ => 0%nat end) E).
    assert (E2 : (x mod 8 = y mod 8)%nat) by exact (f_equal (fun s => match s with Worker _ n => n | _ => 0%nat end) E).
    pose proof (Nat.div_mod x 8 ltac:(lia)) as EX. pose proof (Nat.div_mod y 8 ltac:(lia)) as EY. lia.
  Qed.
  Lemma in_worker_keys m n : inside nodes m n -> In (Worker m n) worker_keys.
  Proof.
    intros (H1 & H2 & H3). assert (H8 : (n < 8)%nat) by (destruct (kind_of m); cbn [queues_of] in H3; lia).
    apply in_map_iff. exists (m * 8 + n)%nat. split.
    - rewrite Nat.add_comm, Nat.div_add, Nat.mod_add, Nat.div_small, Nat.mod_small by lia. reflexivity.
    - apply in_seq. lia.
  Qed.
  Lemma called_split w m : finv w -> Permutation (called m (f_log w)) (flat_map (fun n => called_by m n (f_log w)) (seq 0 (queues_of (kind_of m)))).
  Proof.
    intros I. unfold called, called_by.
    apply (gather (seq 0 (queues_of (kind_of m))) (fun n e => match e with
             | FCall a b v _ => if (a =? m)%nat && (b =? n)%nat then [v] else [] | _ => [] end)); [apply seq_NoDup|].
    intros e HE. pose proof (i_place _ _ _ _ I e HE) as PL. destruct e as [src a q v|a b v out]; [left; split; reflexivity|].
    destruct PL as (P1 & P2 & P3). destruct (Nat.eqb_spec a m) as [->|N]; cbn [andb]; [|left; split; reflexivity].
    right. exists b. split; [apply in_seq; lia|]. rewrite Nat.eqb_refl. split; [reflexivity|]. intros k' _ N.
    destruct (Nat.eqb_spec b k'); [congruence|reflexivity].
  Qed.
  Lemma queue_split w m : finv w -> Permutation (for_node m (pushes (f_log w))) (flat_map (fun q => in_queue m q (f_log w)) (seq 0 (queues_of (kind_of m)))).
  Proof.
    intros I. assert (E : for_node m (pushes (f_log w)) = flat_map (fun e => match e with FPush _ a _ v => if (a =? m)%nat then [v] else [] | _ => [] end) (f_log w)).
    { unfold pushes. generalize (f_log w) as l. induction l as [|e l IH]; [reflexivity|]. cbn [flat_map]. rewrite for_node_app, IH. f_equal.
      destruct e as [src a q v|a b v out]; [|reflexivity]. unfold for_node. cbn [filter fst]. destruct (a =? m)%nat; reflexivity. }
    rewrite E. unfold in_queue.
    apply (gather (seq 0 (queues_of (kind_of m))) (fun q e => match e with
             | FPush _ a b v => if (a =? m)%nat && (b =? q)%nat then [v] else [] | _ => [] end)); [apply seq_NoDup|].
    intros e HE. pose proof (i_place _ _ _ _ I e HE) as PL. destruct e as [src a b v|a b v out]; [|left; split; reflexivity].
    destruct PL as (P1 & P2 & _). destruct (Nat.eqb_spec a m) as [->|N]; cbn [andb]; [|left; split; reflexivity].
    right. exists b. split; [apply in_seq; lia|]. rewrite Nat.eqb_refl. split; [reflexivity|]. intros k' _ N.
    destruct (Nat.eqb_spec b k'); [congruence|reflexivity].
  Qed.
  Lemma outs_split w : finv w -> Permutation (outs (f_log w)) (flat_map (fun s => given progs s (f_log w)) worker_keys).
  Proof.
    intros I. set (hit := fun (s : source) (e : fev) => match s, e with
      | Worker m n, FCall a b _ out => if (a =? m)%nat && (b =? n)%nat then out else []
      | _, _ => [] end).
    assert (E : flat_map (fun s => given progs s (f_log w)) worker_keys = flat_map (fun s => flat_map (hit s) (f_log w)) worker_keys).
    { unfold worker_keys. rewrite !flat_map_concat_map, !map_map. reflexivity. }
    rewrite E. unfold outs. apply gather; [apply worker_keys_nodup|]. intros e HE. pose proof (i_place _ _ _ _ I e HE) as PL.
    destruct e as [src a b v|a b v out].
    - left. split; [reflexivity|]. intros [k|m n] _; reflexivity.
    - right. exists (Worker a b). split; [apply in_worker_keys, PL|]. cbn [hit]. rewrite !Nat.eqb_refl. split; [reflexivity|].
      intros [k|m n] _ N; [reflexivity|]. cbn [hit]. destruct (pair_case a m b n out []) as [(-> & -> & _)|[_ ->]]; [congruence|reflexivity].
  Qed.
  Definition keys (np : nat) : list source := map Outsider (seq 0 np) ++ worker_keys.
  Lemma keys_nodup np : NoDup (keys np).
  Proof.
    unfold keys. assert (H : forall l : list nat, NoDup l -> NoDup (map Outsider l ++ worker_keys)).
    { induction l as [|k l IH]; intros ND; [apply worker_keys_nodup|]. inversion ND as [|? ? NI ND']; subst. cbn [map app].
      constructor; [|apply IH, ND']. intros HI. apply in_app_iff in HI. destruct HI as [HI|HI].
      - apply in_map_iff in HI. destruct HI as (k' & E & HI). injection E as ->. contradiction.
      - apply in_map_iff in HI. destruct HI as (j & E & _). discriminate. }
    apply H, seq_NoDup.
  Qed.
  Lemma sent_split w np : finv w -> (forall k, (np <= k)%nat -> progs k = []) ->
    Permutation (pushes (f_log w)) (flat_map (fun s => sent_by s (f_log w)) (keys np)).
  Proof.
    intros I NP. unfold pushes, sent_by.
    apply (gather (keys np) (fun src e => match e with FPush s m _ v => if source_eq s src then [(m, v)] else [] | _ => [] end)); [apply keys_nodup|].
    intros e HE. pose proof (i_place _ _ _ _ I e HE) as PL. destruct e as [src a b v|a b v out]; [|left; split; reflexivity].
    right. exists src. split.
    - unfold keys. apply in_app_iff. destruct src as [k|x y]; [left|right; apply in_worker_keys, PL]. apply in_map, in_seq. split; [lia|].
      destruct (Nat.lt_ge_cases k np) as [L|L]; [exact L|exfalso]. pose proof (i_sent _ _ _ _ I (Outsider k)) as SE. cbn [given] in SE.
      rewrite NP in SE by exact L. assert (HS : In (a, v) (sent_by (Outsider k) (f_log w))).
      { unfold sent_by. apply in_flat_map. exists (FPush (Outsider k) a b v). split; [exact HE|].
        destruct (source_eq (Outsider k) (Outsider k)); [left; reflexivity|congruence]. }
      destruct (sent_by (Outsider k) (f_log w)); [destruct HS|discriminate].
    - destruct (source_eq src src); [|congruence]. split; [reflexivity|]. intros k' _ N. destruct (source_eq src k'); [congruence|reflexivity].
  Qed.

  Lemma idle_items x : idle_sender x = true -> s_items x = [].
  Proof. unfold idle_sender. destruct (s_items x); [reflexivity|discriminate]. Qed.
  Lemma over_sent w src : finv w -> all_over nodes w -> (exists k, src = Outsider k) \/ (exists m n, src = Worker m n /\ inside nodes m n) ->
    sent_by src (f_log w) = given progs src (f_log w).
  Proof.
    intros I [O1 O2] H. rewrite (i_sent _ _ _ _ I). destruct H as [[k ->]|(m & n & -> & (H1 & H2 & H3))].
    - rewrite (idle_items _ (O1 k)), app_nil_r. reflexivity.
    - destruct (gone_spec nodes w m H1 (O2 m H1)) as [_ D]. rewrite (i_rest _ _ _ _ I), app_nil_r; [reflexivity|].
      rewrite D by exact H2. discriminate.
  Qed.
  Lemma outside_silent w m n : finv w -> ~ inside nodes m n -> sent_by (Worker m n) (f_log w) = [] /\ outs_of m n (f_log w) = [].
  Proof.
    intros I NI. pose proof (i_place _ _ _ _ I) as PL. clear I. split; apply flat_map_nil; intros e HE; specialize (PL e HE);
      destruct e as [src a b v|a b v out]; try reflexivity.
    - destruct (source_eq src (Worker m n)) as [->|]; [|reflexivity]. destruct PL as (_ & _ & PL). contradiction.
    - destruct (pair_case a m b n out []) as [(-> & -> & _)|[_ ->]]; [contradiction|reflexivity].
  Qed.
  Lemma over_sent_all w src : finv w -> all_over nodes w -> sent_by src (f_log w) = given progs src (f_log w).
  Proof.
    intros I O. destruct src as [k|m n]; [apply over_sent; eauto|].
    assert (DEC : inside nodes m n \/ ~ inside nodes m n).
    { unfold inside. destruct (Nat.lt_ge_cases m (length nodes)), (Nat.lt_ge_cases n (workers_of (kind_of m))),
        (Nat.lt_ge_cases n (queues_of (kind_of m))); try (left; tauto); right; lia. }
    destruct DEC as [H|H]; [apply over_sent; eauto 6|]. destruct (outside_silent w m n I H) as [E1 E2]. rewrite E1. symmetry. exact E2.
  Qed.
  Lemma over_queue w m n : finv w -> vinv w -> dinv w -> fits B w -> whole nodes -> all_over nodes w -> (m < length nodes)%nat ->
    (n < queues_of (kind_of m))%nat -> called_by m n (f_log w) = in_queue m n (f_log w).
  Proof.
    intros I V D F WH [_ O] L LQ. destruct (V F) as [_ V2]. rewrite V2. apply firstn_all2.
    assert (LW : (n < workers_of (kind_of m))%nat).
    { destruct (WH (kind_of m)) as [E|E]; [apply nth_In, L|..]; rewrite E in *; cbn [workers_of queues_of] in *; exact LQ. }
    destruct (gone_spec nodes w m L (O m L)) as [_ DN]. specialize (DN n LW).
    pose proof (D m n (conj L (conj LW LQ))) as DD. rewrite DN in DD. destruct DD as [_ DD].
    pose proof (i_work _ _ _ _ I m n) as G. unfold wgood' in G. rewrite DN in G. rewrite <- (i_tail _ _ _ _ I), <- DD, G. lia.
  Qed.
  Lemma exactly_once w np m : finv w -> vinv w -> dinv w -> fits B w -> whole nodes -> all_over nodes w -> (m < length nodes)%nat ->
    (forall k, (np <= k)%nat -> progs k = []) ->
    Permutation (called m (f_log w)) (for_node m (flat_map progs (seq 0 np)) ++ for_node m (outs (f_log w))).
  Proof.
    intros I V D F WH O L NP. rewrite (called_split w m I).
    assert (E1 : flat_map (fun n => called_by m n (f_log w)) (seq 0 (queues_of (kind_of m))) =
                 flat_map (fun n => in_queue m n (f_log w)) (seq 0 (queues_of (kind_of m)))).
    { rewrite !flat_map_concat_map. f_equal. apply map_ext_in. intros n Hn. apply in_seq in Hn. apply over_queue; auto. lia. }
    rewrite E1, <- (queue_split w m I). rewrite <- for_node_app. apply Permutation_for_node. rewrite (sent_split w np I NP).
    assert (E2 : flat_map (fun s => sent_by s (f_log w)) (keys np) = flat_map (fun s => given progs s (f_log w)) (keys np)).
    { rewrite !flat_map_concat_map. f_equal. apply map_ext. intros s. apply over_sent_all; assumption. }
    rewrite E2. unfold keys. rewrite flat_map_app, <- (outs_split w I). apply Permutation_app_tail.
    rewrite !flat_map_concat_map, map_map. reflexivity.
  Qed.
End Flow.
