From Verif Require Export HeapVecProofs3.

Section Vec.
  Variable c : cfg.
  Variable sz : Z.
  Hypothesis PL : placed c.
  Hypothesis RM : roomy c.
  Hypothesis SP : 0 < sz.
  Hypothesis SB : sz < 2 ^ 63.
  Notation vinv := (vinv c sz).
  Notation vec_ok := (vec_ok sz).

  Lemma vinv_start h0 : construct c = Ok h0 -> vinv (VH h0 []) [] [].
  Proof.
    intros E. constructor; cbn [vh_heap vh_vecs].
    - exists h0, []. split; [exact E|constructor].
    - intros b [].
    - intros [|i] v H; discriminate H.
    - intros [|i] j v u H; discriminate H.
    - intros b [].
  Qed.

  Lemma all_nth w i v : nth_error (vh_vecs w) i = Some v -> nth i (all_contents sz w) [] = contents sz (vh_heap w) v.
  Proof.
    intros E. unfold all_contents. apply nth_error_nth. rewrite nth_error_map, E. reflexivity.
  Qed.

  (** Another vector, empty. *)
  Lemma vinv_new w l lo : vinv w l lo -> vinv (VH (vh_heap w) (vh_vecs w ++ [empty_vec])) l lo /\
    all_contents sz (VH (vh_heap w) (vh_vecs w ++ [empty_vec])) = all_contents sz w ++ [[]].
  Proof.
    intros [VR VO VV VA VAL].
    assert (X : forall i v, nth_error (vh_vecs w ++ [empty_vec]) i = Some v -> nth_error (vh_vecs w) i = Some v \/ (v = empty_vec /\ i = length (vh_vecs w))).
    { intros i v E. destruct (Nat.lt_ge_cases i (length (vh_vecs w))) as [L|L].
      - left. rewrite nth_error_app1 in E by exact L. exact E.
      - rewrite nth_error_app2 in E by exact L. destruct (i - length (vh_vecs w))%nat as [|m] eqn:M; cbn in E; [|destruct m; discriminate].
        injection E as <-. right. split; [reflexivity|lia]. }
    split; [constructor; cbn [vh_heap vh_vecs]|].
    - exact VR.
    - exact VO.
    - intros i v E. destruct (X i v E) as [E'|[-> _]]; [exact (VV i v E')|]. split; [constructor|left; reflexivity].
    - intros i j v u E1 E2 NE DZ. destruct (X i v E1) as [A1|[-> _]]; [|cbn in DZ; lia].
      destruct (X j u E2) as [A2|[-> _]]; [exact (VA i j v u A1 A2 NE DZ)|exact DZ].
    - intros b B. destruct (VAL b B) as [O|(i & v & E & P)]; [left; exact O|right]. exists i, v. split; [|exact P].
      rewrite nth_error_app1; [exact E|]. apply nth_error_Some. congruence.
    - unfold all_contents. cbn [vh_heap vh_vecs]. rewrite map_app. reflexivity.
  Qed.

  (** Another user of the heap. *)
  Lemma vinv_other w l lo o : vinv w l lo -> permitted lo o ->
    exists h' p, apply c (vh_heap w) o = Ok (h', p) /\
      vinv (VH h' (vh_vecs w)) (hold l o p (free_heap_size (vh_heap w)) (free_heap_size h')) (hold lo o p (free_heap_size (vh_heap w)) (free_heap_size h')) /\
      all_contents sz (VH h' (vh_vecs w)) = all_contents sz w.
  Proof.
    intros [VR VO VV VA VAL] P. set (h := vh_heap w) in *.
    assert (PL' : permitted l o).
    { destruct o; cbn [permitted] in *; auto.
      - destruct P as [->|(b & B & E)]; [left; reflexivity|right; exists b; auto].
      - destruct P as [V (b & B & E)]. split; [exact V|exists b; auto]. }
    destruct (calls_defined c PL RM h l o VR PL') as (h' & p & A).
    pose proof (reachable_step c h l o h' p VR PL' A) as R'.
    exists h', p. split; [exact A|].
    set (l' := hold l o p (free_heap_size h) (free_heap_size h')) in *.
    set (lo' := hold lo o p (free_heap_size h) (free_heap_size h')) in *.
    assert (LZ : forall b, In b lo -> ~ exists i v, nth_error (vh_vecs w) i = Some v /\ hd_ptr b = ve_data v).
    { intros b B (i & v & E & EP). destruct (VV i v E) as [_ [-> | H]].
      - exact (reach_nonzero c PL RM _ _ b VR (VO b B) EP).
      - destruct H as (_ & _ & _ & _ & NI & _). apply NI. rewrite <- EP. apply in_map, B. }
    assert (STAY : forall i v b, nth_error (vh_vecs w) i = Some v -> In b l -> hd_ptr b = ve_data v -> In b l').
    { intros i v b E B EP. unfold l'. destruct o as [n|n m|q| |z|a y]; cbn [hold]; try exact B.
      - destruct (p =? 0); [exact B|right; exact B].
      - destruct (p =? 0); [exact B|right; exact B].
      - apply filter_In. split; [exact B|]. destruct (Z.eqb_spec (hd_ptr b) q) as [EQ|]; [|reflexivity]. exfalso.
        cbn [permitted] in P. destruct P as [->|(b' & B' & E')].
        + exact (reach_nonzero c PL RM _ _ b VR B EQ).
        + apply (LZ b' B'). exists i, v. split; [exact E|congruence]. }
    assert (SUB : forall b, In b lo' -> In b l').
    { intros b. unfold l', lo'. destruct o as [n|n m|q| |z|a y]; cbn [hold]; try apply VO.
      - destruct (p =? 0); [apply VO|]. intros [<-|B]; [left; reflexivity|right; apply VO, B].
      - destruct (p =? 0); [apply VO|]. intros [<-|B]; [left; reflexivity|right; apply VO, B].
      - intros B. apply filter_In in B. destruct B. apply filter_In. auto. }
    assert (BACK : forall b, In b l' -> In b lo' \/ (In b l /\ ~ In b lo)).
    { intros b. assert (DEC : In b l -> In b lo \/ (In b l /\ ~ In b lo)).
      { intros B. destruct (VAL b B) as [BO|V]; [left; exact BO|right]. split; [exact B|]. intros BO. exact (LZ b BO V). }
      unfold l', lo'. destruct o as [n|n m|q| |z|a y]; cbn [hold]; auto.
      - destruct (p =? 0); [auto|]. intros [<-|B]; [left; left; reflexivity|]. destruct (DEC B); [left; right; assumption|right; assumption].
      - destruct (p =? 0); [auto|]. intros [<-|B]; [left; left; reflexivity|]. destruct (DEC B); [left; right; assumption|right; assumption].
      - intros B. apply filter_In in B. destruct B as [B F]. destruct (DEC B); [left; apply filter_In; auto|right; assumption]. }
    assert (KB : forall i v b x, nth_error (vh_vecs w) i = Some v -> In b l -> hd_ptr b = ve_data v -> hd_ptr b <= x < hd_ptr b + hd_req b -> h_mem h' x = h_mem h x).
    { intros i v b x E B EP X. pose proof (STAY i v b E B EP) as B'.
      destruct (is_write o) eqn:W; [|exact (keep_bytes c PL RM h l o h' p b x VR PL' A W B B' X)].
      destruct o as [n|n m|q| |z|a y]; try discriminate W. cbn [permitted] in P. destruct P as [Y (b2 & B2 & X2)].
      destruct (write_byte c h l a y h' p A PL') as [_ W2]. apply W2.
      pose proof (blocks_apart c PL RM h l b b2 VR B (VO b2 B2)) as D. unfold disjoint in D.
      assert (hd_ptr b <> hd_ptr b2) by (intros EQ; apply (LZ b2 B2); exists i, v; split; [exact E|congruence]). lia. }
    assert (CO : forall i v, nth_error (vh_vecs w) i = Some v -> contents sz h' v = contents sz h v).
    { intros i v E. destruct (VV i v E) as [_ [-> | H]]; [reflexivity|]. destruct H as (HS & _ & _ & _ & _ & b & B & BP & BQ).
      apply contents_ext; [exact SP|reflexivity|]. intros x X. apply (KB i v b); [exact E|exact B|exact BP|]. rewrite BP, BQ. nia. }
    split; [constructor; cbn [vh_heap vh_vecs]|].
    - exact R'.
    - exact SUB.
    - intros i v E. destruct (VV i v E) as [F H]. split; [rewrite (CO i v E); exact F|]. destruct H as [-> | H]; [left; reflexivity|right].
      destruct H as (H1 & H2 & H3 & H4 & H5 & b & B & BP & BQ). repeat (split; [assumption|]).
      split; [|exists b; split; [exact (STAY i v b E B BP)|auto]].
      intros IN. apply in_map_iff in IN. destruct IN as (b' & EB & B').
      assert (b' = b). { apply (same_block c PL RM h' l' b' b R'); [apply SUB, B'|exact (STAY i v b E B BP)|congruence]. } subst b'.
      pose proof (reach_nodup c PL RM h' l' R') as ND.
      unfold lo' in B'. unfold l' in ND. destruct o as [n|n m|q| |z|a y]; cbn [hold] in B', ND;
        try (apply H5; rewrite <- BP; apply in_map, B').
      + destruct (p =? 0); [apply H5; rewrite <- BP; apply in_map, B'|]. destruct B' as [B'|B']; [|apply H5; rewrite <- BP; apply in_map, B'].
        cbn [map] in ND. apply NoDup_cons_iff in ND. destruct ND as [NI _]. apply NI. rewrite B'. apply in_map, B.
      + destruct (p =? 0); [apply H5; rewrite <- BP; apply in_map, B'|]. destruct B' as [B'|B']; [|apply H5; rewrite <- BP; apply in_map, B'].
        cbn [map] in ND. apply NoDup_cons_iff in ND. destruct ND as [NI _]. apply NI. rewrite B'. apply in_map, B.
      + apply filter_In in B'. apply H5. rewrite <- BP. apply in_map, B'.
    - exact VA.
    - intros b B. destruct (BACK b B) as [BO|[BL NO]]; [left; exact BO|right]. destruct (VAL b BL) as [BO|V]; [contradiction|exact V].
    - unfold all_contents. cbn [vh_heap vh_vecs]. apply map_ext_in. intros v V. apply In_nth_error in V. destruct V as [i E]. exact (CO i v E).
  Qed.

  Lemma vinv_use w l lo : vinv w l lo -> in_use c sz w lo l.
  Proof.
    intros [VR VO VV VA VAL]. split; [exact VR|]. split; [exact VO|]. split.
    - intros v V NZ. apply In_nth_error in V. destruct V as [i E]. destruct (VV i v E) as [_ [-> | H]]; [cbn in NZ; lia|].
      destruct H as (_ & _ & _ & _ & _ & b & B & BP & BQ). exists b. split; [exact B|]. split; [exact NZ|auto].
    - intros b B. destruct (VAL b B) as [O|(i & v & E & EP)]; [left; exact O|right]. exists v. split; [exact (nth_error_In _ _ E)|].
      destruct (VV i v E) as [_ [-> | H]]; [exfalso; exact (reach_nonzero c PL RM _ _ b VR B EP)|].
      destruct H as (_ & CP & _ & _ & _ & b2 & B2 & BP & BQ). split; [lia|].
      assert (b = b2) by (apply (same_block c PL RM _ l b b2 VR B B2); congruence). subst b2. auto.
  Qed.
End Vec.
