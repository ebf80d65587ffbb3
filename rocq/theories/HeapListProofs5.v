From Coq Require Import Permutation.
From Verif Require Export HeapListProofs4.

Section HList.
  Variable c : cfg.
  Variable sz : Z.
  Hypothesis PL : placed c.
  Hypothesis RM : roomy c.
  Hypothesis SP : 0 < sz.
  Hypothesis SB : node_size sz < 2 ^ 63.
  Notation word := (word c).
  Notation ns := (node_size sz).
  Notation linv := (linv c sz).
  Notation list_ok := (list_ok c sz).
  Notation good_place := (good_place c).

  (** ** loops *)
  Lemma walk_chain w a s : chain (word w) (addrs s) a -> (forall e, In e s -> read_bytes (h_mem (lh_heap w)) (fst e + 16) (Z.to_nat sz) = snd e) ->
    walk c sz w 0 (length s) (hd a (addrs s)) = s /\ after c w 0 (length s) (hd a (addrs s)) = a.
  Proof.
    induction s as [|[p x] s IH]; cbn [addrs map chain length walk after hd fst]; intros H HR; [auto|].
    destruct H as [H1 H2]. rewrite Z.add_0_r, H1. destruct (IH H2) as [I1 I2]; [intros e E; apply HR; right; exact E|]. fold (addrs s). rewrite I1, I2.
    pose proof (HR (p, x) (or_introl eq_refl)) as E. cbn [fst snd] in E. rewrite E. auto.
  Qed.
  Lemma walk_back w h s : forall a, links (word w) (h :: addrs s) (addrs s ++ [a]) -> (forall e, In e s -> read_bytes (h_mem (lh_heap w)) (fst e + 16) (Z.to_nat sz) = snd e) ->
    walk c sz w 8 (length s) (word w (a + 8)) = rev s /\ after c w 8 (length s) (word w (a + 8)) = h.
  Proof.
    induction s as [|[p x] s IH] using rev_ind; intros a H HR.
    - cbn in H. destruct (links_cons _ _ _ _ _ H) as [[_ H1] _]. cbn. auto.
    - unfold addrs in H. rewrite map_app in H. cbn [map fst] in H. fold (addrs s) in H.
      assert (L : length (h :: addrs s) = length (addrs s ++ [p])) by (rewrite app_length; cbn; lia).
      change (h :: addrs s ++ [p]) with ((h :: addrs s) ++ [p]) in H. apply links_app in H; [|exact L]. destruct H as [H1 H2].
      destruct (links_cons _ _ _ _ _ H2) as [[_ H3] _]. rewrite app_length. cbn [length]. rewrite Nat.add_comm. cbn [Nat.add walk after]. rewrite H3.
      destruct (IH p H1) as [I1 I2]; [intros e E; apply HR, in_or_app; auto|]. rewrite I1, I2, rev_app_distr. cbn [rev app].
      pose proof (HR (p, x) ltac:(apply in_or_app; right; left; reflexivity)) as E. cbn [fst snd] in E. rewrite E. auto.
  Qed.
  Lemma list_loops w l a s : list_ok w l a s ->
    forwards c sz w a = s /\ backwards c sz w a = rev s /\ after c w 0 (Z.to_nat (size_of c w a)) (word w a) = a /\
    after c w 8 (Z.to_nat (size_of c w a)) (word w (a + 8)) = a /\ size_of c w a = Z.of_nat (length s).
  Proof.
    intros K. assert (HR : forall e, In e s -> read_bytes (h_mem (lh_heap w)) (fst e + 16) (Z.to_nat sz) = snd e) by (intros e E; apply (lk_nodes _ _ _ _ _ _ K e E)).
    unfold forwards, backwards, size_of. rewrite (lk_size _ _ _ _ _ _ K), Nat2Z.id.
    destruct (links_chain _ a _ a (lk_links _ _ _ _ _ _ K)) as [EH CH]. rewrite EH.
    destruct (walk_chain w a s CH HR) as [W1 W2]. destruct (walk_back w a s a (lk_links _ _ _ _ _ _ K) HR) as [B1 B2]. auto.
  Qed.
  Lemma list_nth_ext {A} (l1 : list A) : forall l2, (forall i, nth_error l1 i = nth_error l2 i) -> l1 = l2.
  Proof.
    induction l1 as [|x l1 IH]; intros [|y l2] H; [reflexivity|specialize (H 0%nat); discriminate H|specialize (H 0%nat); discriminate H|].
    pose proof (H 0%nat) as H0. injection H0 as <-. f_equal. apply IH. intros i. exact (H (S i)).
  Qed.
  Lemma linv_lists w l lo ss : linv w l lo ss -> map (forwards c sz w) (lh_lists w) = ss.
  Proof.
    intros I. apply list_nth_ext. intros i. rewrite nth_error_map. destruct (nth_error (lh_lists w) i) as [a|] eqn:EA; cbn.
    - destruct (nth_error ss i) as [s|] eqn:ES.
      + destruct (list_loops w l a s (li_ok _ _ _ _ _ _ I i a s EA ES)) as [F _]. rewrite F. reflexivity.
      + apply nth_error_None in ES. pose proof (li_len _ _ _ _ _ _ I). assert (i < length (lh_lists w))%nat by (apply nth_error_Some; congruence). lia.
    - symmetry. apply nth_error_None. apply nth_error_None in EA. pose proof (li_len _ _ _ _ _ _ I). lia.
  Qed.
  Lemma linv_at w l lo ss i a : linv w l lo ss -> nth_error (lh_lists w) i = Some a -> nth_error ss i = Some (forwards c sz w a).
  Proof. intros I EA. rewrite <- (linv_lists w l lo ss I), nth_error_map, EA. reflexivity. Qed.

  (** ** start, new lists, other users *)
  Lemma linv_start h0 words : construct c = Ok h0 -> linv (LH h0 words []) [] [] [].
  Proof.
    intros E. constructor; cbn [lh_heap lh_lists].
    - exists h0, []. split; [exact E|constructor].
    - intros b [].
    - intros [|i] a H; discriminate H.
    - intros [|i] j a b H; discriminate H.
    - reflexivity.
    - intros [|i] a s H; discriminate H.
    - intros [|i] j s t p H; discriminate H.
    - intros [|i] s p H; discriminate H.
    - intros b [].
  Qed.

  Lemma nth_snoc {A} (l : list A) x i y : nth_error (l ++ [x]) i = Some y -> nth_error l i = Some y \/ (y = x /\ i = length l).
  Proof.
    intros E. destruct (Nat.lt_ge_cases i (length l)) as [L|L].
    - left. rewrite nth_error_app1 in E by exact L. exact E.
    - rewrite nth_error_app2 in E by exact L. destruct (i - length l)%nat as [|m] eqn:M; cbn in E; [|destruct m; discriminate].
      injection E as <-. right. split; [reflexivity|lia].
  Qed.
  Lemma linv_new w l lo ss a : linv w l lo ss -> free_place c w a ->
    exists w', init_list c (LH (lh_heap w) (lh_words w) (lh_lists w ++ [a])) a = Ok w' /\ linv w' l lo (ss ++ [[]]) /\ lh_heap w' = lh_heap w.
  Proof.
    intros [IR IO IP IA IL IK ID IX IALL] (F1 & F2 & F3 & F4 & F5).
    assert (G : good_place a) by (pose proof (pl_xs c PL); repeat split; auto; lia).
    set (w0 := LH (lh_heap w) (lh_words w) (lh_lists w ++ [a])).
    assert (EA : nth_error (lh_lists w0) (length (lh_lists w)) = Some a) by (cbn [lh_lists w0]; rewrite nth_error_app2, Nat.sub_diag by lia; reflexivity).
    destruct (init_ok c sz PL RM SP w0 l (length (lh_lists w)) a IR EA G) as (w' & E & HH & HL & HW & K). exists w'. split; [exact E|]. split; [|exact HH].
    cbn [lh_heap lh_lists lh_words w0] in HH, HL, HW.
    constructor.
    - rewrite HH. exact IR.
    - exact IO.
    - rewrite HL. intros i b EB. destruct (nth_snoc _ _ _ _ EB) as [EB'|[-> _]]; [exact (IP i b EB')|exact G].
    - rewrite HL. intros i j b d EB ED NE. destruct (nth_snoc _ _ _ _ EB) as [EB'|[-> LB]], (nth_snoc _ _ _ _ ED) as [ED'|[-> LD]].
      + exact (IA i j b d EB' ED' NE).
      + destruct (F5 b (nth_error_In _ _ EB')); lia.
      + destruct (F5 d (nth_error_In _ _ ED')); lia.
      + lia.
    - rewrite HL, !app_length, IL. reflexivity.
    - rewrite HL. intros i b s EB ES. destruct (nth_snoc _ _ _ _ EB) as [EB'|[-> LB]], (nth_snoc _ _ _ _ ES) as [ES'|[-> LS]].
      + apply (list_ok_frame c sz PL RM SP w w' l l b s IR (IP i b EB') (IK i b s EB' ES')).
        * intros k KK. destruct (F5 b (nth_error_In _ _ EB')); apply HW; lia.
        * intros d D _. split; [exact D|]. rewrite HH. reflexivity.
      + assert (i < length (lh_lists w))%nat by (apply nth_error_Some; congruence). lia.
      + assert (i < length ss)%nat by (apply nth_error_Some; congruence). lia.
      + exact K.
    - intros i j s t p ES ET NE P. destruct (nth_snoc _ _ _ _ ES) as [ES'|[-> _]]; [|destruct P].
      destruct (nth_snoc _ _ _ _ ET) as [ET'|[-> _]]; [exact (ID i j s t p ES' ET' NE P)|intros []].
    - intros i s p ES P. destruct (nth_snoc _ _ _ _ ES) as [ES'|[-> _]]; [exact (IX i s p ES' P)|destruct P].
    - intros b B. destruct (IALL b B) as [O|(i & s & ES & P)]; [left; exact O|right]. exists i, s. split; [|exact P].
      rewrite nth_error_app1; [exact ES|]. apply nth_error_Some. congruence.
  Qed.

  Definition is_node (ss : list (list (Z * elem))) (b : held) : Prop := exists i s, nth_error ss i = Some s /\ In (hd_ptr b) (addrs s).
  Lemma linv_move w l lo ss h' l' lo' : linv w l lo ss -> reachable c h' l' -> (forall b, In b lo' -> In b l') ->
    (forall b, In b l -> is_node ss b -> In b l' /\ ~ In (hd_ptr b) (map hd_ptr lo') /\ forall x, hd_ptr b <= x < hd_ptr b + hd_req b -> h_mem h' x = h_mem (lh_heap w) x) ->
    (forall b, In b l' -> In b lo' \/ (In b l /\ is_node ss b)) ->
    linv (LH h' (lh_words w) (lh_lists w)) l' lo' ss.
  Proof.
    intros [IR IO IP IA IL IK ID IX IALL] R' SUB STAY BACK. constructor; cbn [lh_heap lh_lists lh_words]; auto.
    - intros i a s EA ES. apply (list_ok_frame c sz PL RM SP w _ l l' a s IR (IP i a EA) (IK i a s EA ES)); [reflexivity|].
      intros b B P. destruct (STAY b B) as (S1 & _ & S2); [exists i, s; auto|]. auto.
    - intros i s p ES P. destruct (nth_error (lh_lists w) i) as [a|] eqn:EA; [|apply nth_error_None in EA; assert (i < length ss)%nat by (apply nth_error_Some; congruence); lia].
      destruct (node_block c sz w l a s p (IK i a s EA ES) P) as (b & B & <- & _). apply (STAY b B). exists i, s. auto.
    - intros b B. destruct (BACK b B) as [O|[_ N]]; [left; exact O|right; exact N].
  Qed.

  Lemma linv_other w l lo ss o : linv w l lo ss -> permitted lo o ->
    exists h' p, apply c (lh_heap w) o = Ok (h', p) /\
      linv (LH h' (lh_words w) (lh_lists w)) (hold l o p (free_heap_size (lh_heap w)) (free_heap_size h')) (hold lo o p (free_heap_size (lh_heap w)) (free_heap_size h')) ss.
  Proof.
    intros I P. pose proof I as [IR IO IP IA IL IK ID IX IALL]. set (h := lh_heap w) in *.
    assert (PL' : permitted l o).
    { destruct o; cbn [permitted] in *; auto.
      - destruct P as [->|(b & B & E)]; [left; reflexivity|right; exists b; auto].
      - destruct P as [V (b & B & E)]. split; [exact V|exists b; auto]. }
    destruct (calls_defined c PL RM h l o IR PL') as (h' & p & A).
    pose proof (reachable_step c h l o h' p IR PL' A) as R'.
    exists h', p. split; [exact A|].
    set (l' := hold l o p (free_heap_size h) (free_heap_size h')) in *.
    set (lo' := hold lo o p (free_heap_size h) (free_heap_size h')) in *.
    assert (LZ : forall b d, In b lo -> is_node ss d -> hd_ptr b <> hd_ptr d).
    { intros b d B (i & s & ES & P') E. apply (IX i s _ ES P'). rewrite <- E. apply in_map, B. }
    assert (STAY : forall b, In b l -> is_node ss b -> In b l').
    { intros b B N. unfold l'. destruct o as [n|n m|q| |z|a y]; cbn [hold]; try exact B.
      - destruct (p =? 0); [exact B|right; exact B].
      - destruct (p =? 0); [exact B|right; exact B].
      - apply filter_In. split; [exact B|]. destruct (Z.eqb_spec (hd_ptr b) q) as [EQ|]; [|reflexivity]. exfalso.
        cbn [permitted] in P. destruct P as [->|(b' & B' & E')].
        + exact (reach_nonzero c PL RM _ _ b IR B EQ).
        + apply (LZ b' b B' N). congruence. }
    assert (SUB : forall b, In b lo' -> In b l').
    { intros b. unfold l', lo'. destruct o as [n|n m|q| |z|a y]; cbn [hold]; try apply IO.
      - destruct (p =? 0); [apply IO|]. intros [<-|B]; [left; reflexivity|right; apply IO, B].
      - destruct (p =? 0); [apply IO|]. intros [<-|B]; [left; reflexivity|right; apply IO, B].
      - intros B. apply filter_In in B. destruct B. apply filter_In. auto. }
    apply (linv_move w l lo ss h' l' lo' I R' SUB).
    - intros b B N. pose proof (STAY b B N) as B'. split; [exact B'|]. split.
      + intros IN. apply in_map_iff in IN. destruct IN as (d & ED & D). assert (d = b) by (apply (same_block c PL RM h' l' d b R' (SUB d D) B'); exact ED). subst d.
        pose proof (reach_nodup c PL RM h' l' R') as ND. unfold lo' in D. unfold l' in ND.
        destruct o as [n|n m|q| |z|a y]; cbn [hold] in D, ND; try (exact (LZ b b D N eq_refl)).
        * destruct (p =? 0); [exact (LZ b b D N eq_refl)|]. destruct D as [D|D]; [|exact (LZ b b D N eq_refl)].
          cbn [map] in ND. apply NoDup_cons_iff in ND. destruct ND as [NI _]. apply NI. rewrite D. apply in_map, B.
        * destruct (p =? 0); [exact (LZ b b D N eq_refl)|]. destruct D as [D|D]; [|exact (LZ b b D N eq_refl)].
          cbn [map] in ND. apply NoDup_cons_iff in ND. destruct ND as [NI _]. apply NI. rewrite D. apply in_map, B.
        * apply filter_In in D. exact (LZ b b (proj1 D) N eq_refl).
      + intros x X. destruct (is_write o) eqn:W; [|exact (keep_bytes c PL RM h l o h' p b x IR PL' A W B B' X)].
        destruct o as [n|n m|q| |z|a y]; try discriminate W. cbn [permitted] in P. destruct P as [Y (b2 & B2 & X2)].
        destruct (write_byte c h l a y h' p A PL') as [_ W2]. apply W2.
        pose proof (blocks_apart c PL RM h l b b2 IR B (IO b2 B2)) as D. unfold disjoint in D.
        assert (hd_ptr b <> hd_ptr b2) by (intros EQ; apply (LZ b2 b B2 N); congruence). lia.
    - intros b B. assert (DEC : In b l -> In b lo \/ (In b l /\ is_node ss b)) by (intros BL; destruct (IALL b BL); auto).
      unfold l' in B. unfold lo'. destruct o as [n|n m|q| |z|a y]; cbn [hold] in *; auto.
      + destruct (p =? 0); [auto|]. destruct B as [<-|B]; [left; left; reflexivity|]. destruct (DEC B); [left; right; assumption|right; assumption].
      + destruct (p =? 0); [auto|]. destruct B as [<-|B]; [left; left; reflexivity|]. destruct (DEC B); [left; right; assumption|right; assumption].
      + apply filter_In in B. destruct B as [B F]. destruct (DEC B); [left; apply filter_In; auto|right; assumption].
  Qed.

  Lemma linv_refused w l lo ss h' : linv w l lo ss -> reachable c h' l -> unchanged (lh_heap w) h' -> linv (LH h' (lh_words w) (lh_lists w)) l lo ss.
  Proof.
    intros I R' (U & _). apply (linv_move w l lo ss h' l lo I R' (li_others _ _ _ _ _ _ I)).
    - intros b B (i & s & ES & P). split; [exact B|]. split; [exact (li_lo _ _ _ _ _ _ I i s _ ES P)|]. intros x _. apply U.
    - intros b B. destruct (li_all _ _ _ _ _ _ I b B) as [O|N]; [left; exact O|right; split; [exact B|exact N]].
  Qed.

  (** ** the blocks in use *)
  Lemma linv_use w l lo ss : linv w l lo ss -> lin_use c sz w lo l.
  Proof.
    intros I. split; [exact (li_reach _ _ _ _ _ _ I)|]. split; [exact (li_others _ _ _ _ _ _ I)|]. split.
    - intros a p x IA F. apply In_nth_error in IA. destruct IA as [i EA]. pose proof (linv_at w l lo ss i a I EA) as ES.
      apply (node_block c sz w l a _ p (li_ok _ _ _ _ _ _ I i a _ EA ES)). change p with (fst (p, x)). apply in_map, F.
    - intros b B. destruct (li_all _ _ _ _ _ _ I b B) as [O|(i & s & ES & P)]; [left; exact O|right].
      rewrite <- (linv_lists w l lo ss I), nth_error_map in ES. destruct (nth_error (lh_lists w) i) as [a|] eqn:EA; [|discriminate]. cbn in ES. injection ES as <-.
      apply in_map_iff in P. destruct P as ([p x] & E & F). cbn in E. exists a, x. rewrite <- E. split; [exact (nth_error_In _ _ EA)|exact F].
  Qed.
  Lemma use_linv w l0 l lo ss : linv w l0 lo ss -> lin_use c sz w lo l -> linv w l lo ss.
  Proof.
    intros I (R & O & V & A). pose proof I as [IR IO IP IA IL IK ID IX IALL]. constructor; auto.
    - intros i a s EA ES. destruct (IK i a s EA ES) as [K1 K2 K3 K4]. constructor; auto.
      intros [p x] E. destruct (K3 _ E) as (E1 & E2 & _). split; [exact E1|]. split; [exact E2|]. cbn [fst].
      pose proof (linv_at w l0 lo ss i a I EA) as EF. rewrite ES in EF. injection EF as ->. exact (V a p x (nth_error_In _ _ EA) E).
    - intros b B. destruct (A b B) as [BO|(a & x & IA' & F)]; [left; exact BO|right]. apply In_nth_error in IA'. destruct IA' as [i EA].
      exists i, (forwards c sz w a). split; [exact (linv_at w l0 lo ss i a I EA)|]. change (hd_ptr b) with (fst (hd_ptr b, x)). apply in_map, F.
  Qed.
End HList.
