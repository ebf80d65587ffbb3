From Coq Require Import Permutation.
From Verif Require Export HeapListProofs2.

Section HList.
  Variable c : cfg.
  Variable sz : Z.
  Hypothesis PL : placed c.
  Hypothesis RM : roomy c.
  Hypothesis SP : 0 < sz.
  Hypothesis SB : node_size sz < 2 ^ 63.
  Notation word := (word c).
  Notation ns := (node_size sz).
  Notation owned := (owned c).
  Notation cell := (cell c sz).
  Notation linv := (linv c sz).
  Notation list_ok := (list_ok c sz).
  Notation good_place := (good_place c).

  Lemma size_small : Z.of_nat (Z.to_nat (c_size c)) + 1 < W64.
  Proof. pose proof (pl_base c PL). pose proof (pl_xs c PL). pose proof (pl_top c PL). pose proof (pl_size c PL). lia. Qed.
  Lemma is_elem_len x : is_elem sz x -> Z.of_nat (length x) = sz.
  Proof. intros [L _]. lia. Qed.
  Lemma read_back m a x : (forall j, (j < length x)%nat -> m (a + Z.of_nat j) = nth j x 0) -> read_bytes m a (length x) = x.
  Proof.
    intros H. revert a H. induction x as [|y x IH]; intros a H; cbn [length]; [reflexivity|].
    unfold read_bytes in *. cbn [seq map]. f_equal.
    - rewrite (H 0%nat) by (cbn; lia). reflexivity.
    - rewrite <- seq_shift, map_map. rewrite <- (IH (a + 1)) at 2.
      + apply map_ext. intros j. f_equal. lia.
      + intros j J. replace (a + 1 + Z.of_nat j) with (a + Z.of_nat (S j)) by lia. rewrite H by (cbn; lia). reflexivity.
  Qed.

  Lemma insert_ok w l lo ss i a s1 s2 pos Y x : linv w l lo ss -> nth_error (lh_lists w) i = Some a -> nth_error ss i = Some (s1 ++ s2) ->
    addrs s2 ++ [a] = pos :: Y -> is_elem sz x ->
    exists w' r, insert_node c sz w a pos x = Ok (w', r) /\
      ((r = LBadAlloc /\ ~ (exists z, free_window c l z ns) /\ reachable c (lh_heap w') l /\ unchanged (lh_heap w) (lh_heap w') /\
        lh_words w' = lh_words w /\ lh_lists w' = lh_lists w) \/
       (exists n b, r = LIter n /\ (exists z, free_window c l z ns) /\ ~ In n (map hd_ptr l) /\ hd_ptr b = n /\ hd_req b = ns /\
        linv w' (b :: l) lo (update ss i (s1 ++ (n, x) :: s2)) /\ lh_lists w' = lh_lists w /\
        forall d z, In d lo -> hd_ptr d <= z < hd_ptr d + hd_req d -> h_mem (lh_heap w') z = h_mem (lh_heap w) z)).
  Proof.
    intros I EA ES EY EX. pose proof (ns_big sz) as [NB NM].
    pose proof (li_reach _ _ _ _ _ _ I) as R. pose proof (linv_apart _ _ _ _ _ _ I) as LA. pose proof (li_ok _ _ _ _ _ _ I i a _ EA ES) as K.
    pose proof (li_places _ _ _ _ _ _ I i a EA) as G. pose proof (list_nodup c sz PL RM SP w l lo ss i a _ I EA ES) as ND.
    assert (CE : forall q, In q (a :: addrs (s1 ++ s2)) -> cell w l q) by (intros q; apply (list_cells c sz w l lo ss i a _ q I EA ES)).
    unfold addrs in ND, CE. rewrite map_app in ND, CE. fold (addrs s1) (addrs s2) in ND, CE.
    destruct (before_place a (addrs s1)) as (X & xp & EP & LX).
    pose proof (lk_links _ _ _ _ _ _ K) as LK. unfold addrs in LK. rewrite map_app in LK. fold (addrs s1) (addrs s2) in LK.
    destruct (ring_at _ _ _ _ _ _ _ _ LK EP LX EY) as (_ & [_ VP] & _).
    assert (CX : In xp (a :: addrs s1 ++ addrs s2)) by (rewrite app_comm_cons, EP, <- app_assoc; apply in_or_app; right; left; reflexivity).
    assert (CP : In pos (a :: addrs s1 ++ addrs s2)).
    { assert (H : In pos (addrs s2 ++ [a])) by (rewrite EY; left; reflexivity). apply in_app_or in H. destruct H as [H|[<-|[]]]; [right; apply in_or_app; auto|left; reflexivity]. }
    unfold insert_node. destruct (vec_alloc c ns PL RM ltac:(lia) (lh_heap w) l 1 R ltac:(lia) ltac:(lia)) as (h1 & r & EA1 & H). rewrite Z.mul_1_l in H.
    rewrite EA1. cbn [bind]. destruct r as [n|].
    2:{ destruct H as (R1 & U1 & NW). eexists. eexists. split; [reflexivity|]. left. split; [reflexivity|]. split; [exact NW|]. cbn [lh_heap lh_words lh_lists]. auto. }
    destruct H as (NZ & WIN & FR & (fp & R1) & DJ & KM1). set (nb := Held n ns fp) in *.
    assert (NBI : In nb (nb :: l)) by (left; reflexivity).
    pose proof (block_range c PL RM h1 (nb :: l) nb R1 NBI) as NBR. cbn [hd_ptr hd_req nb] in NBR.
    set (w1 := LH h1 (lh_words w) (lh_lists w)).
    assert (K1 : kept w w1 l []) by (constructor; [reflexivity|reflexivity|intros b z B Z _; exact (KM1 b z B Z)]).
    destruct EX as [XL XB]. assert (XL' : Z.of_nat (length x) = sz) by lia.
    destruct (write_ok c PL RM x h1 (nb :: l) nb (n + 16) R1 NBI ltac:(cbn [hd_ptr nb]; lia) ltac:(cbn [hd_ptr hd_req nb]; lia) XB) as (h2 & EW & R2 & F2 & WH & WO).
    rewrite EW. cbn [bind]. set (w2 := LH h2 (lh_words w) (lh_lists w)).
    assert (K2 : kept w1 w2 l []).
    { constructor; [reflexivity|reflexivity|]. intros b z B Z _. cbn [lh_heap w1 w2]. apply WO. pose proof (DJ b B) as D. unfold disjoint in D. lia. }
    pose proof (kept_trans _ _ _ _ _ _ K1 K2) as K12. cbn [app] in K12.
    assert (SUB : forall b, In b l -> In b (nb :: l)) by (intros b B; right; exact B).
    assert (CE2 : forall q, In q (a :: addrs s1 ++ addrs s2) -> cell w2 (nb :: l) q).
    { intros q Q. destruct (CE q Q) as [(b & B & H)|(j & EJ & GJ)]; [left; exists b; split; [right; exact B|exact H]|right; exists j; auto]. }
    assert (CN : cell w2 (nb :: l) n) by (left; exists nb; auto).
    assert (NQ : forall q, In q (a :: addrs s1 ++ addrs s2) -> n <> q).
    { intros q Q E. destruct (CE q Q) as [(b & B & HP & _)|(j & EJ & GJ)].
      - apply FR. rewrite E, <- HP. apply in_map, B.
      - destruct GJ as (_ & _ & _ & GJ). lia. }
    assert (VP2 : word w2 (pos + 8) = xp).
    { rewrite (kept_word c PL RM w w2 l [] (pos + 8) R K12); [exact VP| |intros z []]. apply (cell_owned c sz PL RM SP w l pos 8 R (CE pos CP)). lia. }
    destruct (hook_ok c sz PL RM SP w2 (nb :: l) n pos xp R2 (kept_apart _ _ _ _ K12 LA) CN (CE2 pos CP) (CE2 xp CX) (NQ pos CP) (NQ xp CX) VP2)
      as (w3 & E3 & R3 & K3 & F3 & V1 & V2 & V3 & V4).
    rewrite E3. cbn [bind].
    assert (LL3 : lh_lists w3 = lh_lists w) by (rewrite (kp_lists _ _ _ _ K3); reflexivity).
    assert (EA3 : nth_error (lh_lists w3) i = Some a) by (rewrite LL3; exact EA).
    pose proof (size_owned c w3 (nb :: l) i a EA3 G) as OS. rewrite (get_ok c PL RM w3 (nb :: l) _ R3 OS). cbn [bind].
    assert (AS : forall q k, In q (n :: a :: addrs s1 ++ addrs s2) -> k = 0 \/ k = 8 -> apart (a + 16) (q + k)).
    { intros q k Q KK. apply (size_apart c sz PL RM SP w3 (nb :: l) i a q k R3); [unfold lists_apart; rewrite LL3; exact LA|exact EA3|exact G| |exact KK].
      destruct Q as [<-|Q]; [left; exists nb; auto|exact (kept_cell c sz _ _ _ _ _ K3 (CE2 q Q))]. }
    assert (AZ : forall q k, In q (n :: a :: addrs s1 ++ addrs s2) -> k = 0 \/ k = 8 -> apart (q + k) (a + 16)).
    { intros q k Q KK. pose proof (AS q k Q KK). unfold apart in *. lia. }
    assert (K123 : kept w w3 l [n; n + 8; xp; pos + 8]) by exact (kept_trans _ _ _ _ _ _ K12 (kept_sub _ _ _ _ _ K3 SUB)).
    assert (SZ : word w3 (a + 16) = Z.of_nat (length (s1 ++ s2))).
    { rewrite (kept_word c PL RM w w3 l _ (a + 16) R K123); [exact (lk_size _ _ _ _ _ _ K)|exact (size_owned c w l i a EA G)|].
      intros z Z. cbn [In] in Z. destruct Z as [<-|[<-|[<-|[<-|[]]]]].
      - rewrite <- (Z.add_0_r n). apply AS; [left; reflexivity|lia].
      - apply AS; [left; reflexivity|lia].
      - rewrite <- (Z.add_0_r xp). apply AS; [right; exact CX|lia].
      - apply AS; [right; exact CP|lia]. }
    pose proof (few_nodes c sz PL RM SP w l a _ R K) as FEW. pose proof size_small as SS.
    assert (EU : u64 (word w3 (a + 16) + 1) = Z.of_nat (length (s1 ++ s2)) + 1) by (rewrite SZ; apply Z.mod_small; lia). rewrite EU.
    destruct (put_ok c PL RM w3 (nb :: l) (a + 16) (Z.of_nat (length (s1 ++ s2)) + 1) R3 OS ltac:(lia)) as (w4 & E4 & W4). rewrite E4. cbn [bind].
    pose proof (wrote_kept _ _ _ _ _ _ W4) as K4. pose proof (wo_reach _ _ _ _ _ _ W4) as R4.
    assert (LL4 : lh_lists w4 = lh_lists w) by (rewrite (kp_lists _ _ _ _ K4); exact LL3).
    pose proof (kept_trans _ _ _ _ _ _ K123 (kept_sub _ _ _ _ _ K4 SUB)) as KA. cbn [app] in KA.
    exists w4, (LIter n). split; [reflexivity|]. right. exists n, nb. split; [reflexivity|]. split; [exact WIN|]. split; [exact FR|]. split; [reflexivity|]. split; [reflexivity|].
    (** what is known about words after all *)
    assert (OWN : forall q k, In q (a :: addrs s1 ++ addrs s2) -> k = 0 \/ k = 8 -> owned w l (q + k)) by (intros q k Q KK; exact (cell_owned c sz PL RM SP w l q k R (CE q Q) KK)).
    assert (FRAME : forall q k, In q (a :: addrs s1 ++ addrs s2) -> k = 0 \/ k = 8 -> (q <> xp \/ k <> 0) -> (q <> pos \/ k <> 8) -> word w4 (q + k) = word w (q + k)).
    { intros q k Q KK N1 N2. apply (kept_word c PL RM w w4 l _ _ R KA); [exact (OWN q k Q KK)|].
      pose proof (CE2 q Q) as CQ. assert (LA2 : lists_apart w2) by exact LA.
      intros z Z. cbn [In] in Z. destruct Z as [<-|[<-|[<-|[<-|[<-|[]]]]]].
      - rewrite <- (Z.add_0_r n). apply (links_at c sz PL RM SP w2 (nb :: l)); auto; try lia. left. intros E. exact (NQ q Q (eq_sym E)).
      - apply (links_at c sz PL RM SP w2 (nb :: l)); auto; try lia. left. intros E. exact (NQ q Q (eq_sym E)).
      - rewrite <- (Z.add_0_r xp). apply (links_at c sz PL RM SP w2 (nb :: l)); auto; lia.
      - apply (links_at c sz PL RM SP w2 (nb :: l)); auto; lia.
      - apply AZ; [right; exact Q|exact KK]. }
    assert (AFT : forall q k, In q (n :: a :: addrs s1 ++ addrs s2) -> k = 0 \/ k = 8 -> word w4 (q + k) = word w3 (q + k)).
    { intros q k Q KK. apply (wo_word _ _ _ _ _ _ W4). apply AZ; auto. }
    assert (NEWLK : links (word w4) (a :: addrs (s1 ++ (n, x) :: s2)) (addrs (s1 ++ (n, x) :: s2) ++ [a])).
    { unfold addrs. rewrite map_app. cbn [map fst]. fold (addrs s1) (addrs s2).
      apply (ring_insert (word w) (word w4) a (addrs s1) (addrs s2) X xp pos Y n LK EP LX EY ND).
      - intros q Q NE. rewrite <- (Z.add_0_r q). apply FRAME; auto. right. lia.
      - intros q Q NE. apply FRAME; auto. right. lia.
      - rewrite <- (Z.add_0_r n). rewrite AFT by (auto; left; reflexivity). rewrite Z.add_0_r. exact V1.
      - rewrite AFT by (auto; left; reflexivity). exact V2.
      - rewrite <- (Z.add_0_r xp). rewrite AFT by (auto; right; exact CX). rewrite Z.add_0_r. exact V3.
      - rewrite AFT by (auto; right; exact CP). exact V4. }
    (** bytes *)
    assert (BYTES : forall b z, In b (nb :: l) -> hd_ptr b <= z < hd_ptr b + hd_req b -> ~ In (hd_ptr b) (n :: addrs s1 ++ addrs s2) \/ hd_ptr b + 16 <= z -> h_mem (lh_heap w4) z = h_mem h2 z).
    { intros b z B Z O.
      rewrite (kp_mem _ _ _ _ K4 b z B Z).
      - rewrite (kp_mem _ _ _ _ K3 b z B Z); [reflexivity|].
        assert (LB : forall q k, In q (n :: a :: addrs s1 ++ addrs s2) -> k = 0 \/ k = 8 -> z < q + k \/ q + k + 8 <= z).
        { intros q k Q KK. apply (link_bytes c sz PL RM SP w2 (nb :: l) q k b z R2); [destruct Q as [<-|Q]; [exact CN|exact (CE2 q Q)]|exact KK|exact B|exact Z|].
          destruct O as [O|O]; [|right; exact O]. left. intros E. subst q. destruct Q as [Q|[Q|Q]]; [apply O; left; exact Q| |apply O; right; exact Q].
          pose proof (block_range c PL RM _ _ b R2 B). destruct G as (_ & _ & _ & G). lia. }
        intros y Y0. cbn [In] in Y0. destruct Y0 as [<-|[<-|[<-|[<-|[]]]]].
        + rewrite <- (Z.add_0_r n). apply LB; [left; reflexivity|lia].
        + apply LB; [left; reflexivity|lia].
        + rewrite <- (Z.add_0_r xp). apply LB; [right; exact CX|lia].
        + apply LB; [right; exact CP|lia].
      - intros y [<-|[]]. exact (size_bytes c PL RM _ _ a b z R3 G B Z). }
    assert (OLD : forall b z, In b l -> hd_ptr b <= z < hd_ptr b + hd_req b -> ~ In (hd_ptr b) (addrs s1 ++ addrs s2) \/ hd_ptr b + 16 <= z -> h_mem (lh_heap w4) z = h_mem (lh_heap w) z).
    { intros b z B Z O. rewrite (BYTES b z (or_intror B) Z).
      - exact (kp_mem _ _ _ _ K12 b z B Z (fun _ F => match F with end)).
      - destruct O as [O|O]; [left|right; exact O]. intros [E|Q]; [|exact (O Q)]. apply FR. rewrite E. apply in_map, B. }
    assert (NEW : list_ok w4 (nb :: l) a (s1 ++ (n, x) :: s2)).
    { constructor.
      - exact NEWLK.
      - rewrite (wo_here _ _ _ _ _ _ W4), !app_length. cbn [length]. lia.
      - intros e E. apply in_app_or in E. assert (E' : e = (n, x) \/ In e (s1 ++ s2)) by (destruct E as [E|[<-|E]]; auto using in_or_app).
        destruct E' as [->|E'].
        + split; [split; assumption|]. cbn [fst snd]. split; [|exists nb; auto].
          replace (Z.to_nat sz) with (length x) by lia. apply read_back. intros j J. rewrite <- (WH j J).
          apply (BYTES nb); [exact NBI|cbn [hd_ptr hd_req nb]; lia|right; cbn [hd_ptr nb]; lia].
        + destruct (lk_nodes _ _ _ _ _ _ K e E') as (E1 & E2 & b & B & HP & HQ). split; [exact E1|]. split; [|exists b; auto].
          rewrite <- E2. apply read_ext. intros j J. apply (OLD b); [exact B|lia|right; lia].
      - unfold addrs. rewrite map_app. cbn [map fst]. fold (addrs s1) (addrs s2). apply NoDup_cons_iff in ND. destruct ND as [_ ND].
        assert (PM : Permutation (n :: addrs s1 ++ addrs s2) (addrs s1 ++ n :: addrs s2)) by (apply Permutation_middle).
        apply (Permutation_NoDup PM). constructor; [|exact ND]. intros Q. exact (NQ n (or_intror Q) eq_refl). }
    assert (ADS : addrs (s1 ++ s2) = addrs s1 ++ addrs s2) by (unfold addrs; apply map_app).
    destruct (linv_set c sz PL RM SP w l lo ss i a (s1 ++ s2) w4 (nb :: l) (s1 ++ (n, x) :: s2) I EA ES R4 LL4) as [I' LO].
    - intros y OB N1 N2 N3. apply (kp_words _ _ _ _ KA). cbn [In].
      assert (INB : forall q k, In q (n :: a :: addrs s1 ++ addrs s2) -> k = 0 \/ k = 8 -> q + k = y -> False).
      { intros q k Q KK E. assert (CQ : cell w2 (nb :: l) q) by (destruct Q as [<-|Q]; [exact CN|exact (CE2 q Q)]).
        destruct (Z.eq_dec q a) as [->|NA]; [lia|]. destruct CQ as [(b & B & HP & HQ)|(j & EJ & GJ)].
        - pose proof (owned_in c PL RM _ _ b (q + k) R2 B ltac:(lia) ltac:(lia)). congruence.
        - destruct Q as [<-|[Q|Q]]; [destruct GJ as (_ & _ & _ & GJ); lia|congruence|]. rewrite <- ADS in Q. destruct (node_block c sz w l a _ q K Q) as (b & B & HP & HQ).
          pose proof (owned_in c PL RM _ _ b (q + k) R B ltac:(lia) ltac:(lia)). congruence. }
      intros [E|[E|[E|[E|[E|[]]]]]].
      + apply (INB n 0); [left; reflexivity|lia|lia].
      + apply (INB n 8); [left; reflexivity|lia|lia].
      + apply (INB xp 0); [right; exact CX|lia|lia].
      + apply (INB pos 8); [right; exact CP|lia|lia].
      + lia.
    - rewrite ADS. intros b B NI. split; [right; exact B|]. intros z Z. apply (OLD b z B Z). left. exact NI.
    - unfold addrs at 1. rewrite ADS, map_app. cbn [map fst]. fold (addrs s1) (addrs s2). intros b [<-|B].
      + left. apply in_or_app. right. left. reflexivity.
      + destruct (in_dec Z.eq_dec (hd_ptr b) (addrs s1 ++ addrs s2)) as [Q|Q]; [|right; auto]. left. apply in_app_or in Q. apply in_or_app. destruct Q; [auto|right; right; assumption].
    - exact NEW.
    - unfold addrs at 1. rewrite ADS, map_app. cbn [map fst]. fold (addrs s1) (addrs s2). intros p Q. apply in_app_or in Q. destruct Q as [Q|[<-|Q]]; [left; apply in_or_app; auto|right; exact FR|left; apply in_or_app; auto].
    - split; [exact I'|]. split; [exact LL4|]. intros d z D Z. exact (LO d z D Z).
  Qed.
End HList.
