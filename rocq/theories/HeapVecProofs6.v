From Coq Require Import Permutation.
From Verif Require Export HeapVecProofs5.

(** ** vectors that a command leaves where they are *)
Section Stable.
  Variable c : cfg.
  Variable sz : Z.

  Lemma on_vec_nth w i f w' r j : on_vec w i f = Ok (w', r) -> Some j <> Some i -> nth_error (vh_vecs w') j = nth_error (vh_vecs w) j.
  Proof.
    unfold on_vec. destruct (nth_error (vh_vecs w) i) as [v|] eqn:E; [|discriminate].
    destruct (f (vh_heap w) v) as [[[h v'] r']| |]; cbn [bind]; intros H N; try discriminate. injection H as <- <-. cbn [vh_vecs].
    rewrite vput_nth by (apply nth_error_Some; congruence). destruct (Nat.eqb_spec j i) as [->|]; [congruence|reflexivity].
  Qed.
  Lemma others_stay w k w' r j v : vstep c sz w k = Ok (w', r) -> target k <> Some j -> nth_error (vh_vecs w) j = Some v ->
    nth_error (vh_vecs w') j = Some v.
  Proof.
    intros S T E. destruct k as [|i|i x|i|i m x|i n|i|i m|o]; cbn [vstep target] in *;
      try (rewrite (on_vec_nth _ _ _ _ _ j S) by congruence; exact E).
    - injection S as <- <-. cbn [vh_vecs]. rewrite nth_error_app1; [exact E|]. apply nth_error_Some. congruence.
    - destruct (nth_error (vh_vecs w) m); [|discriminate]. destruct (i =? m)%nat; [injection S as <- <-; exact E|].
      rewrite (on_vec_nth _ _ _ _ _ j S) by congruence. exact E.
    - destruct (apply c (vh_heap w) o) as [[h p]| |]; cbn [bind] in S; try discriminate. injection S as <- <-. exact E.
  Qed.

  Lemma on_vec_inv w i f w' r v : on_vec w i f = Ok (w', r) -> nth_error (vh_vecs w) i = Some v ->
    exists h v', f (vh_heap w) v = Ok (h, v', r) /\ nth_error (vh_vecs w') i = Some v'.
  Proof.
    unfold on_vec. intros H E. rewrite E in H. destruct (f (vh_heap w) v) as [[[h v'] r']| |]; cbn [bind] in H; try discriminate.
    injection H as <- <-. exists h, v'. split; [reflexivity|]. cbn [vh_vecs]. rewrite vput_nth, Nat.eqb_refl by (apply nth_error_Some; congruence). reflexivity.
  Qed.
  Lemma keeps_block w k w' r j v : 0 < sz -> (forall i u, nth_error (vh_vecs w) i = Some u -> 0 <= ve_size u <= max_size sz) ->
    vstep c sz w k = Ok (w', r) -> asks_for sz w k = None -> k <> VDrop j ->
    nth_error (vh_vecs w) j = Some v -> exists v', nth_error (vh_vecs w') j = Some v' /\ ve_data v' = ve_data v /\ ve_cap v' = ve_cap v.
  Proof.
    intros SP SZ S A ND E.
    assert (T : target k <> Some j -> exists v', nth_error (vh_vecs w') j = Some v' /\ ve_data v' = ve_data v /\ ve_cap v' = ve_cap v).
    { intros T. exists v. split; [exact (others_stay w k w' r j v S T E)|auto]. }
    destruct k as [|i|i x|i|i m x|i n|i|i m|o]; try (apply T; cbn; congruence).
    - destruct (Nat.eq_dec i j) as [->|NE]; [|apply T; cbn; congruence]. cbn [vstep] in S. destruct (on_vec_inv _ _ _ _ _ v S E) as (h & v' & F & E').
      exists v'. split; [exact E'|]. cbn [asks_for] in A. rewrite E in A. unfold push_back in F.
      destruct (Z.eqb_spec (ve_size v) (ve_cap v)) as [EQ|NQ]; cbn [negb andb] in *.
      + destruct (Z.ltb_spec (ve_size v) (max_size sz)); [discriminate|]. pose proof (SZ j v E). unfold check_len in F.
        replace (max_size sz - ve_size v) with 0 in F by lia. change (u64 0) with 0 in F. cbn in F. injection F as <- <- <-. auto.
      + destruct (write_bytes _ _ _ _); cbn [bind] in F; try discriminate. injection F as <- <- <-. auto.
    - destruct (Nat.eq_dec i j) as [->|NE]; [|apply T; cbn; congruence]. cbn [vstep] in S. destruct (on_vec_inv _ _ _ _ _ v S E) as (h & v' & F & E').
      exists v'. split; [exact E'|]. cbv beta in F. destruct (ve_size v =? 0); [discriminate|]. injection F as <- <- <-. auto.
    - destruct (Nat.eq_dec i j) as [->|NE]; [|apply T; cbn; congruence]. cbn [vstep] in S. destruct (on_vec_inv _ _ _ _ _ v S E) as (h & v' & F & E').
      exists v'. split; [exact E'|]. cbv beta in F. destruct (ve_size v <=? Z.of_nat m); [discriminate|].
      destruct (write_bytes _ _ _ _); cbn [bind] in F; try discriminate. injection F as <- <- <-. auto.
    - destruct (Nat.eq_dec i j) as [->|NE]; [|apply T; cbn; congruence]. cbn [vstep] in S. destruct (on_vec_inv _ _ _ _ _ v S E) as (h & v' & F & E').
      exists v'. split; [exact E'|]. cbn [asks_for] in A. rewrite E in A. unfold reserve in F.
      destruct (Z.ltb_spec (max_size sz) n); [injection F as <- <- <-; auto|]. destruct (Z.leb_spec n (max_size sz)); [|lia].
      destruct (Z.ltb_spec (ve_cap v) n); cbn [andb] in A; [discriminate|]. injection F as <- <- <-. auto.
    - destruct (Nat.eq_dec i j) as [->|NE]; [|apply T; cbn; congruence]. cbn [vstep] in S. destruct (on_vec_inv _ _ _ _ _ v S E) as (h & v' & F & E').
      exists v'. split; [exact E'|]. injection F as <- <- <-. auto.
    - destruct (Nat.eq_dec i j) as [->|NE]; [|apply T; cbn; congruence]. cbn [vstep asks_for] in S, A. rewrite E in A.
      destruct (nth_error (vh_vecs w) m) as [u|]; [|discriminate]. destruct (j =? m)%nat; [injection S as <- <-; exists v; auto|].
      destruct (on_vec_inv _ _ _ _ _ v S E) as (h & v' & F & E'). exists v'. split; [exact E'|]. unfold copy_assign in F.
      destruct (ve_cap v <? ve_size u); [discriminate|]. destruct (write_bytes _ _ _ _); cbn [bind] in F; try discriminate. injection F as <- <- <-. auto.
  Qed.
End Stable.

Section Vec.
  Variable c : cfg.
  Variable sz : Z.
  Hypothesis PL : placed c.
  Hypothesis RM : roomy c.
  Hypothesis SP : 0 < sz.
  Hypothesis SB : sz < 2 ^ 63.
  Notation vinv := (vinv c sz).

  Lemma use_vinv w l0 l lo : vinv w l0 lo -> in_use c sz w lo l -> vinv w l lo.
  Proof.
    intros [VR VO VV VA VAL] (R & O & V & A). constructor; auto.
    - intros i v E. destruct (VV i v E) as [F H]. split; [exact F|]. destruct H as [->|H]; [left; reflexivity|right].
      destruct H as (H1 & H2 & H3 & H4 & H5 & _). repeat (split; [assumption|]).
      destruct (V v (nth_error_In _ _ E) ltac:(lia)) as (b & B & _ & BP & BQ). exists b. auto.
    - intros b B. destruct (A b B) as [BO|(v & IV & _ & BP & _)]; [left; exact BO|right]. apply In_nth_error in IV. destruct IV as [i E]. exists i, v. auto.
  Qed.

  Lemma runs_step w lo evs k : vruns c sz w lo evs -> vpermitted sz w lo k ->
    exists l, vinv w l lo /\ fine c sz w l lo k.
  Proof.
    intros RU P. destruct (runs_inv c sz PL RM SP SB w lo evs RU) as [[l VI] _]. exists l. split; [exact VI|]. exact (fine_step c sz PL RM SP SB w l lo k VI P).
  Qed.
  Lemma runs_sizes w lo evs i v : vruns c sz w lo evs -> nth_error (vh_vecs w) i = Some v -> 0 <= ve_size v <= ve_cap v /\ ve_cap v <= max_size sz.
  Proof.
    intros RU E. destruct (runs_inv c sz PL RM SP SB w lo evs RU) as [[l VI] _]. destruct (size_bound c sz SP SB w l lo i v VI E) as (A & B & _). auto.
  Qed.

  (** ** pushing what was reserved *)
  Lemma push_room w lo evs i v x : vruns c sz w lo evs -> nth_error (vh_vecs w) i = Some v -> ve_size v < ve_cap v -> is_elem sz x ->
    exists w', vstep c sz w (VPush i x) = Ok (w', VDone) /\ vruns c sz w' lo (evs ++ [(VPush i x, VDone)]) /\
      nth_error (vh_vecs w') i = Some (Vec (ve_data v) (ve_size v + 1) (ve_cap v)).
  Proof.
    intros RU E L EX. assert (P : vpermitted sz w lo (VPush i x)) by (split; [apply nth_error_Some; congruence|exact EX]).
    destruct (runs_step w lo evs (VPush i x) RU P) as (l & VI & w' & r & l' & S & _). pose proof (vr_step c sz w lo evs _ w' r RU P S) as RU'.
    assert (S' := S). cbn [vstep] in S'. destruct (on_vec_inv _ _ _ _ _ v S' E) as (h & v' & F & E'). unfold push_back in F.
    destruct (Z.eqb_spec (ve_size v) (ve_cap v)); [lia|]. cbn [negb] in F. destruct (write_bytes _ _ _ _); cbn [bind] in F; try discriminate.
    injection F as <- <- <-. exists w'. split; [exact S|]. split; [exact RU'|exact E'].
  Qed.
  Lemma pushes_room xs : forall w lo evs i v, vruns c sz w lo evs -> nth_error (vh_vecs w) i = Some v ->
    ve_size v + Z.of_nat (length xs) <= ve_cap v -> Forall (is_elem sz) xs ->
    exists w', vexec c sz w (map (VPush i) xs) = Ok (w', map (fun _ => VDone) xs) /\
      nth_error (vh_vecs w') i = Some (Vec (ve_data v) (ve_size v + Z.of_nat (length xs)) (ve_cap v)).
  Proof.
    induction xs as [|x xs IH]; intros w lo evs i v RU E L F; cbn [map vexec length].
    - exists w. split; [reflexivity|]. cbn [Z.of_nat]. rewrite Z.add_0_r. destruct v; exact E.
    - inversion F as [|? ? FX F']; subst. cbn [length] in L. destruct (push_room w lo evs i v x RU E ltac:(lia) FX) as (w1 & S & RU1 & E1).
      destruct (IH w1 lo _ i _ RU1 E1) as (w2 & S2 & E2); [cbn [ve_size ve_cap]; lia|exact F'|].
      exists w2. rewrite S. cbn [bind]. rewrite S2. cbn [bind]. split; [reflexivity|]. rewrite E2. cbn [ve_data ve_size ve_cap]. do 2 f_equal. lia.
  Qed.

  Lemma reserve_room w lo evs i n w' : vruns c sz w lo evs -> vpermitted sz w lo (VReserve i n) -> vstep c sz w (VReserve i n) = Ok (w', VDone) ->
    exists v v', nth_error (vh_vecs w) i = Some v /\ nth_error (vh_vecs w') i = Some v' /\ ve_size v' = ve_size v /\ n <= ve_cap v'.
  Proof.
    intros RU [IL NS] S. destruct (some_nth _ _ IL) as [v E]. cbn [vstep] in S. destruct (on_vec_inv _ _ _ _ _ v S E) as (h & v' & F & E').
    exists v, v'. split; [exact E|]. split; [exact E'|]. unfold reserve in F. destruct (max_size sz <? n); [discriminate|].
    destruct (Z.ltb_spec (ve_cap v) n); [|injection F as <- <-; auto]. unfold regrow in F.
    destruct (alloc_allocate c (vh_heap w) sz n) as [[h1 [p|]]| |]; cbn [bind] in F; try discriminate.
    destruct (write_bytes c h1 _ _) as [h2| |]; cbn [bind] in F; try discriminate. destruct (write_bytes c h2 _ _) as [h3| |]; cbn [bind] in F; try discriminate.
    destruct (vfree c h3 _) as [h4| |]; cbn [bind] in F; try discriminate. injection F as <- <-. cbn [ve_size ve_cap length Z.of_nat]. lia.
  Qed.

  (** ** nothing is lost *)
  Lemma lo_nodup w lo evs : vruns c sz w lo evs -> NoDup (map hd_ptr lo).
  Proof.
    induction 1 as [h0 E|w lo evs k w' r RU IH P ST]; [constructor|].
    destruct (runs_step w lo evs k RU P) as (l & VI & w1 & r1 & l1 & ST1 & V1 & _). rewrite ST in ST1. injection ST1 as <- <-.
    destruct k as [|i|i x|i|i m x|i n|i|i m|o]; cbn [vothers]; try exact IH. destruct r as [| | |p]; try exact IH.
    cbn [vothers] in V1. set (lo' := hold lo o p (free_heap_size (vh_heap w)) (free_heap_size (vh_heap w'))) in *.
    cbn [vstep] in ST. destruct (apply c (vh_heap w) o) as [[h' q]| |] eqn:A; cbn [bind] in ST; try discriminate. injection ST as <- <-. cbn [vh_heap] in *.
    assert (PLl : permitted l o).
    { pose proof (vi_others _ _ _ _ _ VI) as VO. cbn [vpermitted] in P. destruct o; cbn [permitted] in *; auto.
      - destruct P as [->|(b & B & E)]; [left; reflexivity|right; exists b; auto].
      - destruct P as [V (b & B & E)]. split; [exact V|exists b; auto]. }
    pose proof (reach_nodup c PL RM _ _ (reachable_step c _ l o h' q (vi_reach _ _ _ _ _ VI) PLl A)) as ND.
    assert (FREE : forall n, NoDup (map hd_ptr (Held q n (free_heap_size (vh_heap w) - free_heap_size h') :: l)) -> NoDup (map hd_ptr (Held q n (free_heap_size (vh_heap w) - free_heap_size h') :: lo))).
    { intros n N. cbn [map hd_ptr] in *. apply NoDup_cons_iff in N. destruct N as [N _]. constructor; [|exact IH].
      intros IN. apply N. apply in_map_iff in IN. destruct IN as (b & EB & B). rewrite <- EB. apply in_map. exact (vi_others _ _ _ _ _ VI b B). }
    unfold lo'. destruct o as [n|n m|z| |z|a y]; cbn [hold] in *; try exact IH.
    - destruct (q =? 0); [exact IH|exact (FREE _ ND)].
    - destruct (q =? 0); [exact IH|exact (FREE _ ND)].
    - clear - IH. induction lo as [|b lo I]; [constructor|]. cbn [map] in IH. apply NoDup_cons_iff in IH. destruct IH as [NI IH]. cbn [filter].
      destruct (negb (hd_ptr b =? z)); [|exact (I IH)]. cbn [map]. constructor; [|exact (I IH)]. intros IN. apply NI.
      apply in_map_iff in IN. destruct IN as (b' & EB & B). apply filter_In in B. rewrite <- EB. apply in_map, B.
  Qed.

  Lemma vec_total w lo evs h0 : vruns c sz w lo evs -> construct c = Ok h0 -> Forall (fun v => v = empty_vec) (vh_vecs w) ->
    free_heap_size (vh_heap w) + total_footprint lo = free_heap_size h0.
  Proof.
    intros RU E0 F. destruct (runs_inv c sz PL RM SP SB w lo evs RU) as [[l VI] _]. pose proof (lo_nodup w lo evs RU) as ND.
    pose proof (vi_reach _ _ _ _ _ VI) as R. destruct (accounting c PL RM _ l h0 R E0) as [AC _]. rewrite <- AC. f_equal.
    assert (PE : Permutation lo l).
    { apply NoDup_Permutation; [exact (NoDup_map_inv _ _ ND)|exact (NoDup_map_inv _ _ (reach_nodup c PL RM _ _ R))|].
      intros b. split; [exact (vi_others _ _ _ _ _ VI b)|]. intros B. destruct (vi_all _ _ _ _ _ VI b B) as [BO|(i & v & EI & EP)]; [exact BO|exfalso].
      rewrite Forall_forall in F. rewrite (F v (nth_error_In _ _ EI)) in EP. exact (reach_nonzero c PL RM _ _ b R B EP). }
    unfold total_footprint. clear - PE. induction PE; cbn [map fold_right]; lia.
  Qed.

  Lemma drops n : forall w lo evs m, vruns c sz w lo evs -> (m + n = length (vh_vecs w))%nat ->
    (forall i v, (i < m)%nat -> nth_error (vh_vecs w) i = Some v -> v = empty_vec) ->
    exists w' evs', vexec c sz w (map VDrop (seq m n)) = Ok (w', repeat VDone n) /\ vruns c sz w' lo evs' /\ Forall (fun v => v = empty_vec) (vh_vecs w').
  Proof.
    induction n as [|n IH]; intros w lo evs m RU LE EM; cbn [seq map vexec repeat].
    - exists w, evs. split; [reflexivity|]. split; [exact RU|]. apply Forall_forall. intros v V. apply In_nth_error in V. destruct V as [i E].
      apply (EM i v); [|exact E]. assert (i < length (vh_vecs w))%nat by (apply nth_error_Some; congruence). lia.
    - assert (P : vpermitted sz w lo (VDrop m)) by (cbn; lia).
      destruct (some_nth (vh_vecs w) m ltac:(lia)) as [u EU].
      destruct (runs_step w lo evs (VDrop m) RU P) as (l & VI & w1 & r & l1 & S & _). pose proof (vr_step c sz w lo evs _ w1 r RU P S) as RU1. cbn [vothers] in RU1.
      assert (S' := S). cbn [vstep] in S'. assert (S2 := S'). destruct (on_vec_inv _ _ _ _ _ u S' EU) as (h & v' & F & E'). cbv beta in F.
      destruct (vfree c (vh_heap w) (ve_data u)) as [h1| |]; cbn [bind] in F; try discriminate. injection F as <- <- <-.
      assert (LW : length (vh_vecs w1) = length (vh_vecs w)).
      { unfold on_vec in S2. rewrite EU in S2. destruct (vfree c (vh_heap w) (ve_data u)); cbn [bind] in S2; try discriminate. injection S2 as <-. cbn [vh_vecs]. apply vput_length. }
      destruct (IH w1 lo _ (1 + m)%nat RU1) as (w2 & evs2 & S3 & RU2 & F2).
      + lia.
      + intros i v L E. destruct (Nat.eq_dec i m) as [->|NE]; [congruence|]. apply (EM i v); [lia|]. rewrite <- E. symmetry. apply (on_vec_nth _ _ _ _ _ i S'). congruence.
      + exists w2, evs2. rewrite S. cbn [bind]. cbn [Nat.add] in S3. rewrite S3. cbn [bind]. auto.
  Qed.
End Vec.

(** ** a checked run, for the examples *)
Definition elemb (sz : Z) (x : elem) : bool := (Z.of_nat (length x) =? sz) && forallb (fun b => (0 <=? b) && (b <? 256)) x.
Lemma elemb_ok sz x : elemb sz x = true -> is_elem sz x.
Proof.
  unfold elemb. intros H. apply andb_prop in H. destruct H as [H1 H2]. split; [lia|]. rewrite forallb_forall in H2. apply Forall_forall. intros b B. specialize (H2 b B). lia.
Qed.
Definition vpermittedb (sz : Z) (w : vheap) (lo : list held) (k : vcmd) : bool :=
  let has i := (i <? length (vh_vecs w))%nat in
  match k with
  | VNew => true
  | VDrop i | VClear i => has i
  | VPush i x => has i && elemb sz x
  | VPop i => match nth_error (vh_vecs w) i with Some v => 0 <? ve_size v | None => false end
  | VSet i j x => elemb sz x && match nth_error (vh_vecs w) i with Some v => (j <? Z.to_nat (ve_size v))%nat | None => false end
  | VReserve i n => has i && (0 <=? n) && (n <? W64)
  | VCopy i j => has i && has j
  | VOther o => permittedb lo o
  end.
Lemma vpermittedb_ok sz w lo k : vpermittedb sz w lo k = true -> vpermitted sz w lo k.
Proof.
  destruct k as [|i|i x|i|i j x|i n|i|i j|o]; cbn [vpermittedb vpermitted]; intros H.
  - exact I.
  - apply Nat.ltb_lt, H.
  - apply andb_prop in H. destruct H as [H1 H2]. split; [apply Nat.ltb_lt, H1|apply elemb_ok, H2].
  - destruct (nth_error (vh_vecs w) i) as [v|]; [|discriminate]. exists v. split; [reflexivity|]. intros E. apply (f_equal (@length _)) in E.
    rewrite contents_length in E. cbn in E. lia.
  - apply andb_prop in H. destruct H as [H1 H2]. split; [apply elemb_ok, H1|]. destruct (nth_error (vh_vecs w) i) as [v|]; [|discriminate]. exists v.
    split; [reflexivity|]. rewrite contents_length. apply Nat.ltb_lt, H2.
  - apply andb_prop in H. destruct H as [H H3]. apply andb_prop in H. destruct H as [H1 H2]. split; [apply Nat.ltb_lt, H1|]. unfold is_size. lia.
  - apply Nat.ltb_lt, H.
  - apply andb_prop in H. destruct H as [H1 H2]. split; apply Nat.ltb_lt; assumption.
  - apply permittedb_ok, H.
Qed.
Fixpoint vcheck (c : cfg) (sz : Z) (w : vheap) (lo : list held) (evs : list (vcmd * vret)) (ks : list vcmd) : option (vheap * list held * list (vcmd * vret)) :=
  match ks with
  | [] => Some (w, lo, evs)
  | k :: t =>
    if vpermittedb sz w lo k then
      match vstep c sz w k with
      | Ok (w', r) => vcheck c sz w' (vothers lo k r (free_heap_size (vh_heap w)) (free_heap_size (vh_heap w'))) (evs ++ [(k, r)]) t
      | _ => None
      end
    else None
  end.
Lemma vcheck_runs c sz ks : forall w lo evs x, vruns c sz w lo evs -> vcheck c sz w lo evs ks = Some x -> vruns c sz (fst (fst x)) (snd (fst x)) (snd x).
Proof.
  induction ks as [|k ks IH]; intros w lo evs x RU H; cbn [vcheck] in H; [injection H as <-; exact RU|].
  destruct (vpermittedb sz w lo k) eqn:P; [|discriminate]. destruct (vstep c sz w k) as [[w' r]| |] eqn:S; try discriminate.
  apply (IH _ _ _ x (vr_step c sz w lo evs k w' r RU (vpermittedb_ok _ _ _ _ P) S) H).
Qed.
