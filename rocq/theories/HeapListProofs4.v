From Coq Require Import Permutation.
From Verif Require Export HeapListProofs3.

Section HList.
  Variable c : cfg.
  Variable sz : Z.
  Hypothesis PL : placed c.
  Hypothesis RM : roomy c.
  Hypothesis SP : 0 < sz.
  Hypothesis SB : node_size sz < 2 ^ 63.
  Notation word := (word c).
  Notation ns := (node_size sz).
  Notation owned := (owned c).
  Notation cell := (cell c sz).
  Notation linv := (linv c sz).
  Notation list_ok := (list_ok c sz).
  Notation good_place := (good_place c).

  Lemma erase_ok w l lo ss i a s1 s2 p x q Y : linv w l lo ss -> nth_error (lh_lists w) i = Some a -> nth_error ss i = Some (s1 ++ (p, x) :: s2) ->
    addrs s2 ++ [a] = q :: Y ->
    exists w' l', erase_node c w a p = Ok (w', LIter q) /\ linv w' l' lo (update ss i (s1 ++ s2)) /\ lh_lists w' = lh_lists w /\
      (forall b, In b l' <-> In b l /\ hd_ptr b <> p) /\
      forall d z, In d lo -> hd_ptr d <= z < hd_ptr d + hd_req d -> h_mem (lh_heap w') z = h_mem (lh_heap w) z.
  Proof.
    intros I EA ES EY. pose proof (ns_big sz) as [NB NM].
    pose proof (li_reach _ _ _ _ _ _ I) as R. pose proof (linv_apart _ _ _ _ _ _ I) as LA. pose proof (li_ok _ _ _ _ _ _ I i a _ EA ES) as K.
    pose proof (li_places _ _ _ _ _ _ I i a EA) as G. pose proof (list_nodup c sz PL RM SP w l lo ss i a _ I EA ES) as ND.
    assert (ADS : addrs (s1 ++ (p, x) :: s2) = addrs s1 ++ p :: addrs s2) by (unfold addrs; rewrite map_app; reflexivity).
    assert (ADS2 : addrs (s1 ++ s2) = addrs s1 ++ addrs s2) by (unfold addrs; apply map_app).
    assert (CE : forall r, In r (a :: addrs s1 ++ p :: addrs s2) -> cell w l r) by (rewrite <- ADS; intros r; apply (list_cells c sz w l lo ss i a _ r I EA ES)).
    rewrite ADS in ND. pose proof (lk_links _ _ _ _ _ _ K) as LK. rewrite ADS in LK.
    destruct (before_place a (addrs s1)) as (X & y & EP & LX).
    destruct (ring_out _ _ _ _ _ _ _ _ _ LK EP LX EY) as (VQ & VY & _ & _).
    assert (PP : In p (a :: addrs s1 ++ p :: addrs s2)) by (right; apply in_or_app; right; left; reflexivity).
    assert (SUBQ : forall r, In r (a :: addrs s1 ++ addrs s2) -> In r (a :: addrs s1 ++ p :: addrs s2)).
    { intros r [<-|Q]; [left; reflexivity|right]. apply in_app_or in Q. apply in_or_app. destruct Q; [auto|right; right; assumption]. }
    assert (NDP : NoDup (a :: addrs s1 ++ addrs s2) /\ ~ In p (a :: addrs s1 ++ addrs s2)).
    { rewrite app_comm_cons in ND. split; [exact (NoDup_remove_1 _ _ _ ND)|exact (NoDup_remove_2 _ _ _ ND)]. }
    destruct NDP as [ND' NP].
    assert (CX' : In y (a :: addrs s1 ++ addrs s2)) by (rewrite app_comm_cons, EP, <- app_assoc; apply in_or_app; right; left; reflexivity).
    assert (CQ' : In q (a :: addrs s1 ++ addrs s2)).
    { assert (H : In q (addrs s2 ++ [a])) by (rewrite EY; left; reflexivity). apply in_app_or in H. destruct H as [H|[<-|[]]]; [right; apply in_or_app; auto|left; reflexivity]. }
    assert (OP : owned w l p) by (rewrite <- (Z.add_0_r p); apply (cell_owned c sz PL RM SP w l p 0 R (CE p PP)); lia).
    unfold erase_node. rewrite (get_ok c PL RM w l p R OP), VQ. cbn [bind].
    pose proof (size_owned c w l i a EA G) as OS. rewrite (get_ok c PL RM w l _ R OS), (lk_size _ _ _ _ _ _ K). cbn [bind].
    pose proof (few_nodes c sz PL RM SP w l a _ R K) as FEW. pose proof (size_small c PL) as SS. rewrite app_length in *. cbn [length] in *.
    assert (EU : u64 (Z.of_nat (length s1 + S (length s2)) - 1) = Z.of_nat (length s1 + length s2)).
    { unfold u64. rewrite Z.mod_small by lia. lia. }
    rewrite EU. destruct (put_ok c PL RM w l (a + 16) (Z.of_nat (length s1 + length s2)) R OS ltac:(lia)) as (w1 & E1 & W1). rewrite E1. cbn [bind].
    pose proof (wrote_kept _ _ _ _ _ _ W1) as K1. pose proof (wo_reach _ _ _ _ _ _ W1) as R1.
    assert (AZ : forall r k, In r (a :: addrs s1 ++ p :: addrs s2) -> k = 0 \/ k = 8 -> apart (r + k) (a + 16)).
    { intros r k Q KK. pose proof (size_apart c sz PL RM SP w l i a r k R LA EA G (CE r Q) KK) as H. unfold apart in *. lia. }
    assert (F1 : forall r k, In r (a :: addrs s1 ++ p :: addrs s2) -> k = 0 \/ k = 8 -> word w1 (r + k) = word w (r + k)).
    { intros r k Q KK. apply (wo_word _ _ _ _ _ _ W1). apply AZ; auto. }
    assert (CE1 : forall r, In r (a :: addrs s1 ++ p :: addrs s2) -> cell w1 l r) by (intros r Q; exact (kept_cell c sz _ _ _ _ _ K1 (CE r Q))).
    assert (VQ1 : word w1 p = q) by (rewrite <- (Z.add_0_r p), (F1 p 0 PP ltac:(lia)), Z.add_0_r; exact VQ).
    assert (VY1 : word w1 (p + 8) = y) by (rewrite (F1 p 8 PP ltac:(lia)); exact VY).
    destruct (unhook_ok c sz PL RM SP w1 l p q y R1 (kept_apart _ _ _ _ K1 LA) (CE1 p PP) (CE1 q (SUBQ q CQ')) (CE1 y (SUBQ y CX')) VQ1 VY1)
      as (w2 & E2 & R2 & K2 & F2 & V1 & V2).
    rewrite E2. cbn [bind]. assert (PIN : In p (addrs (s1 ++ (p, x) :: s2))) by (rewrite ADS; apply in_or_app; right; left; reflexivity).
    destruct (node_block c sz w l a _ p K PIN) as (pb & PB & PBP & PBQ).
    unfold put_node. destruct (vec_free c PL RM (lh_heap w2) l pb R2 PB) as (h3 & E3 & R3 & KM3). rewrite PBP in E3. rewrite E3. cbn [bind].
    set (l' := filter (fun b => negb (hd_ptr b =? hd_ptr pb)) l) in *. set (w3 := LH h3 (lh_words w2) (lh_lists w2)).
    assert (INL : forall b, In b l' <-> In b l /\ hd_ptr b <> p).
    { intros b. unfold l'. rewrite filter_In, PBP. destruct (Z.eqb_spec (hd_ptr b) p); cbn; split; intros [? ?]; auto; try discriminate; contradiction. }
    assert (K3 : kept w2 w3 l' []).
    { constructor; [reflexivity|reflexivity|]. intros b z B Z _. apply INL in B. apply (KM3 b z); [apply B|rewrite PBP; apply B|exact Z]. }
    assert (SUBL : forall b, In b l' -> In b l) by (intros b B; apply INL, B).
    pose proof (kept_trans _ _ _ _ _ _ (kept_sub _ _ _ _ _ (kept_trans _ _ _ _ _ _ K1 K2) SUBL) K3) as KA. cbn [app] in KA.
    assert (LL : lh_lists w3 = lh_lists w) by (rewrite (kp_lists _ _ _ _ KA); reflexivity).
    assert (LLA : lh_lists w2 = lh_lists w) by exact LL.
    (* cells that stay *)
    assert (CS : forall r, In r (a :: addrs s1 ++ addrs s2) -> cell w l' r).
    { intros r Q. destruct (CE r (SUBQ r Q)) as [(b & B & HP & HQ)|(j & EJ & GJ)]; [left|right; exists j; auto].
      exists b. split; [|auto]. apply INL. split; [exact B|]. rewrite HP. intros ->. contradiction. }
    assert (CS2 : forall r, In r (a :: addrs s1 ++ addrs s2) -> cell w2 l' r).
    { intros r Q. destruct (CS r Q) as [H|H]; [left; exact H|right; rewrite LLA; exact H]. }
    assert (LAST : forall r k, In r (a :: addrs s1 ++ addrs s2) -> k = 0 \/ k = 8 -> word w3 (r + k) = word w2 (r + k)).
    { intros r k Q KK. destruct (CS r Q) as [(b & B & HP & HQ)|(j & EJ & GJ)].
      - unfold HeapListModel.word. rewrite (owned_in c PL RM _ l' b (r + k) R3 B) by lia. apply rd_ext. intros z Z. apply (kp_mem _ _ _ _ K3 b); [exact B|lia|intros ? []].
      - unfold HeapListModel.word. rewrite place_out by (auto; lia). reflexivity. }
    assert (FRAME : forall r k, In r (a :: addrs s1 ++ addrs s2) -> k = 0 \/ k = 8 -> (r <> y \/ k <> 0) -> (r <> q \/ k <> 8) -> word w3 (r + k) = word w (r + k)).
    { intros r k Q KK N1 N2. rewrite (LAST r k Q KK), <- (F1 r k (SUBQ r Q) KK).
      apply (kept_word c PL RM w1 w2 l _ _ R1 K2); [exact (cell_owned c sz PL RM SP w1 l r k R1 (CE1 r (SUBQ r Q)) KK)|].
      pose proof (kept_apart _ _ _ _ K1 LA) as LA1.
      intros z Z. cbn [In] in Z. destruct Z as [<-|[<-|[]]].
      - rewrite <- (Z.add_0_r y). apply (links_at c sz PL RM SP w1 l); auto; lia.
      - apply (links_at c sz PL RM SP w1 l); auto; lia. }
    assert (BYTES : forall b z, In b l' -> hd_ptr b <= z < hd_ptr b + hd_req b -> ~ In (hd_ptr b) (addrs s1 ++ addrs s2) \/ hd_ptr b + 16 <= z -> h_mem h3 z = h_mem (lh_heap w) z).
    { intros b z B Z O. rewrite (KM3 b z (SUBL b B) ltac:(rewrite PBP; apply INL, B) Z).
      assert (LB : forall r k, In r (a :: addrs s1 ++ addrs s2) -> k = 0 \/ k = 8 -> z < r + k \/ r + k + 8 <= z).
      { intros r k Q KK. apply (link_bytes c sz PL RM SP w l r k b z R (CE r (SUBQ r Q)) KK (SUBL b B) Z).
        destruct O as [O|O]; [|right; exact O]. left. intros E. subst r. destruct Q as [Q|Q]; [|exact (O Q)].
        pose proof (block_range c PL RM _ _ b R (SUBL b B)). destruct G as (_ & _ & _ & G). lia. }
      rewrite (kp_mem _ _ _ _ K2 b z (SUBL b B) Z).
      - apply (kp_mem _ _ _ _ K1 b z (SUBL b B) Z). intros v [<-|[]]. exact (size_bytes c PL RM _ _ a b z R G (SUBL b B) Z).
      - intros v [<-|[<-|[]]]; [rewrite <- (Z.add_0_r y)|]; apply LB; auto. }
    assert (NEW : list_ok w3 l' a (s1 ++ s2)).
    { constructor.
      - rewrite ADS2. apply (ring_erase (word w) (word w3) a (addrs s1) (addrs s2) X y q Y p LK EP LX EY ND').
        + intros r Q NE. rewrite <- (Z.add_0_r r). apply FRAME; auto. right. lia.
        + intros r Q NE. apply FRAME; auto. right. lia.
        + rewrite <- (Z.add_0_r y). rewrite LAST by auto. rewrite Z.add_0_r. exact V1.
        + rewrite LAST by auto. exact V2.
      - rewrite app_length. transitivity (word w2 (a + 16)); [unfold HeapListModel.word; rewrite place_out by (auto; lia); reflexivity|].
        rewrite (kept_word c PL RM w1 w2 l _ _ R1 K2); [exact (wo_here _ _ _ _ _ _ W1)|exact (owned_wrote c _ _ _ _ _ _ W1 OS)|].
        intros z [<-|[<-|[]]]; [rewrite <- (Z.add_0_r y)|]; apply (size_apart c sz PL RM SP w l i); auto.
      - intros e E. assert (E' : In e (s1 ++ (p, x) :: s2)) by (apply in_app_or in E; apply in_or_app; destruct E; [auto|right; right; assumption]).
        destruct (lk_nodes _ _ _ _ _ _ K e E') as (H1 & H2 & b & B & HP & HQ).
        assert (B' : In b l').
        { apply INL. split; [exact B|]. rewrite HP. intros EQ. apply NP. right. rewrite <- EQ, <- ADS2. apply in_map, E. }
        split; [exact H1|]. split; [|exists b; auto]. rewrite <- H2. apply read_ext. intros j J. apply (BYTES b); [exact B'|lia|right; lia].
      - rewrite ADS2. apply NoDup_cons_iff in ND'. apply ND'. }
    exists w3, l'. split; [reflexivity|].
    destruct (linv_set c sz PL RM SP w l lo ss i a _ w3 l' (s1 ++ s2) I EA ES R3 LL) as [I' LO].
    - intros v OB N1 N2 N3. apply (kp_words _ _ _ _ KA). cbn [In].
      assert (INB : forall r k, In r (a :: addrs s1 ++ addrs s2) -> k = 0 \/ k = 8 -> r + k = v -> False).
      { intros r k Q KK E. destruct Q as [Q|Q]; [lia|]. assert (Q' : In r (addrs (s1 ++ (p, x) :: s2))) by (rewrite ADS; apply in_app_or in Q; apply in_or_app; destruct Q; [auto|right; right; assumption]).
        destruct (node_block c sz w l a _ r K Q') as (b & B & HP & HQ). pose proof (owned_in c PL RM _ _ b (r + k) R B ltac:(lia) ltac:(lia)). congruence. }
      intros [E|[E|[E|[]]]]; [lia| |].
      + apply (INB y 0); auto; lia.
      + apply (INB q 8); auto.
    - rewrite ADS. intros b B NI. assert (B' : In b l').
      { apply INL. split; [exact B|]. intros E. apply NI. rewrite E. apply in_or_app. right. left. reflexivity. }
      split; [exact B'|]. intros z Z. apply (BYTES b z B' Z). left. intros Q. apply NI. apply in_app_or in Q. apply in_or_app. destruct Q; [auto|right; right; assumption].
    - rewrite ADS, ADS2. intros b B. apply INL in B. destruct B as [B NE].
      destruct (in_dec Z.eq_dec (hd_ptr b) (addrs s1 ++ p :: addrs s2)) as [Q|Q]; [|right; auto]. left. apply in_app_or in Q. apply in_or_app.
      destruct Q as [Q|[Q|Q]]; auto. symmetry in Q. contradiction.
    - exact NEW.
    - rewrite ADS, ADS2. intros r Q. left. apply in_app_or in Q. apply in_or_app. destruct Q; [auto|right; right; assumption].
    - split; [exact I'|]. split; [exact LL|]. split; [exact INL|exact LO].
  Qed.

  (** ** clear *)
  Fixpoint chain (V : Z -> Z) (t : list Z) (a : Z) : Prop := match t with [] => True | p :: t' => V p = hd a t' /\ chain V t' a end.
  Lemma links_chain V a t : forall x, links V (x :: t) (t ++ [a]) -> V x = hd a t /\ chain V t a.
  Proof.
    induction t as [|p t IH]; intros x H; cbn [app] in H; destruct (links_cons V _ _ _ _ H) as [[H1 _] H2]; cbn [hd chain]; [auto|].
    split; [exact H1|]. exact (IH p H2).
  Qed.
  Lemma chain_ext V V' t a : chain V t a -> (forall p, In p t -> V' p = V p) -> chain V' t a.
  Proof. induction t as [|p t IH]; cbn; [auto|]. intros [H1 H2] E. rewrite (E p) by auto. split; [exact H1|]. apply IH; auto. Qed.

  Lemma clear_nodes_ok a : good_place a -> forall t w l n, reachable c (lh_heap w) l -> NoDup t -> (forall p, In p t -> exists b, In b l /\ hd_ptr b = p /\ hd_req b = ns) ->
    chain (word w) t a -> (length t <= n)%nat ->
    exists w' l', clear_nodes c n w a (hd a t) = Ok w' /\ lh_words w' = lh_words w /\ lh_lists w' = lh_lists w /\ reachable c (lh_heap w') l' /\
      (forall b, In b l' <-> In b l /\ ~ In (hd_ptr b) t) /\
      (forall b z, In b l' -> hd_ptr b <= z < hd_ptr b + hd_req b -> h_mem (lh_heap w') z = h_mem (lh_heap w) z).
  Proof.
    intros G. pose proof (ns_big sz) as [NB NM]. induction t as [|p t IH]; intros w l n R ND HB CH LE.
    - cbn [hd]. exists w, l. destruct n; cbn [clear_nodes]; rewrite Z.eqb_refl; (split; [reflexivity|]); cbn; intuition.
    - cbn [hd]. destruct n as [|n]; [cbn in LE; lia|]. cbn [clear_nodes].
      destruct (HB p (or_introl eq_refl)) as (b & B & HP & HQ). pose proof (block_range c PL RM _ l b R B) as BR.
      destruct (Z.eqb_spec p a) as [E|NE]; [destruct G as (_ & _ & _ & G); lia|].
      assert (OP : owned w l p).
      { split; [rewrite <- HP; apply BR|]. left. exists b. split; [exact B|lia]. }
      rewrite (get_ok c PL RM w l p R OP). cbn [bind]. destruct CH as [C1 C2]. rewrite C1.
      unfold put_node. destruct (vec_free c PL RM (lh_heap w) l b R B) as (h1 & E1 & R1 & KM). rewrite HP in E1. rewrite E1. cbn [bind].
      apply NoDup_cons_iff in ND. destruct ND as [ND1 ND2].
      set (w1 := LH h1 (lh_words w) (lh_lists w)). set (l1 := filter (fun x => negb (hd_ptr x =? hd_ptr b)) l) in *.
      assert (INL : forall b, In b l1 <-> In b l /\ hd_ptr b <> p).
      { intros d. unfold l1. rewrite filter_In, HP. destruct (Z.eqb_spec (hd_ptr d) p); cbn; split; intros [? ?]; auto; try discriminate; contradiction. }
      assert (HB1 : forall q, In q t -> exists d, In d l1 /\ hd_ptr d = q /\ hd_req d = ns).
      { intros q Q. destruct (HB q (or_intror Q)) as (d & D & DP & DQ). exists d. split; [|auto]. apply INL. split; [exact D|]. rewrite DP. intros ->. contradiction. }
      destruct (IH w1 l1 n R1 ND2 HB1) as (w2 & l2 & E2 & W2 & L2 & R2 & IN2 & KM2); [|cbn in LE; lia|].
      + apply (chain_ext (word w)); [exact C2|]. intros q Q. destruct (HB1 q Q) as (d & D & DP & DQ). unfold HeapListModel.word.
        rewrite (owned_in c PL RM _ l1 d q R1 D) by lia. apply rd_ext. intros z Z. apply INL in D. apply (KM d z); [apply D|rewrite HP; apply D|lia].
      + exists w2, l2. split; [exact E2|]. split; [exact W2|]. split; [exact L2|]. split; [exact R2|]. split.
        * intros d. rewrite IN2, INL. cbn [In]. split; [intros [[H1 H2] H3]; split; [exact H1|intros [E|E]; [congruence|contradiction]]|intros [H1 H2]; split; [split; [exact H1|intros E; apply H2; auto]|intros E; apply H2; auto]].
        * intros d z D Z. rewrite (KM2 d z D Z). apply IN2 in D. destruct D as [D _]. apply INL in D. apply (KM d z); [apply D|rewrite HP; apply D|exact Z].
  Qed.

  Lemma init_ok w l i a : reachable c (lh_heap w) l -> nth_error (lh_lists w) i = Some a -> good_place a ->
    exists w', init_list c w a = Ok w' /\ lh_heap w' = lh_heap w /\ lh_lists w' = lh_lists w /\
      (forall x, x <> a -> x <> a + 8 -> x <> a + 16 -> lh_words w' x = lh_words w x) /\ list_ok w' l a [].
  Proof.
    intros R EA G. assert (CA : cell w l a) by (right; exists i; auto).
    assert (OA : owned w l a) by (rewrite <- (Z.add_0_r a); apply (cell_owned c sz PL RM SP w l a 0 R CA); lia).
    pose proof (cell_owned c sz PL RM SP w l a 8 R CA ltac:(lia)) as OA8. pose proof (size_owned c w l i a EA G) as OS.
    pose proof (cell_range c sz PL RM w l a R CA) as VA.
    assert (P0 : in_buffer c a = false) by (rewrite <- (Z.add_0_r a); apply place_out; [exact G|lia]).
    assert (P8 : in_buffer c (a + 8) = false) by (apply place_out; [exact G|lia]).
    assert (P16 : in_buffer c (a + 16) = false) by (apply place_out; [exact G|lia]).
    unfold init_list. destruct (put_ok c PL RM w l a a R OA ltac:(lia)) as (w1 & E1 & W1). rewrite E1. cbn [bind].
    destruct (put_ok c PL RM w1 l (a + 8) a (wo_reach _ _ _ _ _ _ W1) (owned_wrote c _ _ _ _ _ _ W1 OA8) ltac:(lia)) as (w2 & E2 & W2). rewrite E2. cbn [bind].
    destruct (put_ok c PL RM w2 l (a + 16) 0 (wo_reach _ _ _ _ _ _ W2) (owned_wrote c _ _ _ _ _ _ W2 (owned_wrote c _ _ _ _ _ _ W1 OS)) ltac:(lia)) as (w3 & E3 & W3). rewrite E3.
    exists w3. split; [reflexivity|]. split; [rewrite (wo_out _ _ _ _ _ _ W3 P16), (wo_out _ _ _ _ _ _ W2 P8); exact (wo_out _ _ _ _ _ _ W1 P0)|].
    split; [rewrite (wo_lists _ _ _ _ _ _ W3), (wo_lists _ _ _ _ _ _ W2); exact (wo_lists _ _ _ _ _ _ W1)|]. split.
    - intros x N1 N2 N3. rewrite (wo_words _ _ _ _ _ _ W3 x N3), (wo_words _ _ _ _ _ _ W2 x N2). exact (wo_words _ _ _ _ _ _ W1 x N1).
    - constructor.
      + cbn. constructor; [|constructor]. split.
        * rewrite (wo_word _ _ _ _ _ _ W3), (wo_word _ _ _ _ _ _ W2) by (unfold apart; lia). exact (wo_here _ _ _ _ _ _ W1).
        * rewrite (wo_word _ _ _ _ _ _ W3) by (unfold apart; lia). exact (wo_here _ _ _ _ _ _ W2).
      + exact (wo_here _ _ _ _ _ _ W3).
      + intros e [].
      + constructor.
  Qed.

  Lemma clear_ok w l lo ss i a s : linv w l lo ss -> nth_error (lh_lists w) i = Some a -> nth_error ss i = Some s ->
    exists w' l', clear_list c w a = Ok (w', LDone) /\ linv w' l' lo (update ss i []) /\ lh_lists w' = lh_lists w /\
      (forall b, In b l' <-> In b l /\ ~ In (hd_ptr b) (addrs s)) /\
      forall d z, In d lo -> hd_ptr d <= z < hd_ptr d + hd_req d -> h_mem (lh_heap w') z = h_mem (lh_heap w) z.
  Proof.
    intros I EA ES. pose proof (li_reach _ _ _ _ _ _ I) as R. pose proof (li_ok _ _ _ _ _ _ I i a _ EA ES) as K. pose proof (li_places _ _ _ _ _ _ I i a EA) as G.
    assert (CA : cell w l a) by (right; exists i; auto).
    assert (OA : owned w l a) by (rewrite <- (Z.add_0_r a); apply (cell_owned c sz PL RM SP w l a 0 R CA); lia).
    unfold clear_list. rewrite (get_ok c PL RM w l a R OA). cbn [bind].
    destruct (links_chain _ a _ a (lk_links _ _ _ _ _ _ K)) as [EH CH]. rewrite EH.
    destruct (clear_nodes_ok a G (addrs s) w l (walk_fuel c) R (lk_nodup _ _ _ _ _ _ K)) as (w1 & l1 & E1 & W1 & L1 & R1 & IN1 & KM1).
    { intros p P. exact (node_block c sz w l a s p K P). }
    { exact CH. }
    { pose proof (few_nodes c sz PL RM SP w l a _ R K). unfold addrs. rewrite map_length. unfold walk_fuel. lia. }
    rewrite E1. cbn [bind].
    destruct (init_ok w1 l1 i a R1 ltac:(rewrite L1; exact EA) G) as (w2 & E2 & H2 & L2 & W2 & K2). rewrite E2. cbn [bind].
    exists w2, l1. split; [reflexivity|].
    destruct (linv_set c sz PL RM SP w l lo ss i a s w2 l1 [] I EA ES) as [I' LO].
    - rewrite H2. exact R1.
    - rewrite L2. exact L1.
    - intros x _ N1 N2 N3. rewrite (W2 x N1 N2 N3), W1. reflexivity.
    - intros b B NI. assert (B1 : In b l1) by (apply IN1; auto). split; [exact B1|]. rewrite H2. intros z Z. exact (KM1 b z B1 Z).
    - intros b B. right. apply IN1. exact B.
    - exact K2.
    - intros p [].
    - split; [exact I'|]. split; [rewrite L2; exact L1|]. split; [exact IN1|exact LO].
  Qed.

  Lemma set_ok w l lo ss i a s1 s2 p y x : linv w l lo ss -> nth_error (lh_lists w) i = Some a -> nth_error ss i = Some (s1 ++ (p, y) :: s2) -> is_elem sz x ->
    exists h', write_bytes c (lh_heap w) (p + 16) x = Ok h' /\ linv (LH h' (lh_words w) (lh_lists w)) l lo (update ss i (s1 ++ (p, x) :: s2)) /\
      free_heap_size h' = free_heap_size (lh_heap w) /\
      forall d z, In d lo -> hd_ptr d <= z < hd_ptr d + hd_req d -> h_mem h' z = h_mem (lh_heap w) z.
  Proof.
    intros I EA ES EX. pose proof (ns_big sz) as [NB NM].
    pose proof (li_reach _ _ _ _ _ _ I) as R. pose proof (li_ok _ _ _ _ _ _ I i a _ EA ES) as K. pose proof (li_places _ _ _ _ _ _ I i a EA) as G.
    assert (AD : forall v, addrs (s1 ++ (p, v) :: s2) = addrs s1 ++ p :: addrs s2) by (intros v; unfold addrs; rewrite map_app; reflexivity).
    assert (PIN : In p (addrs (s1 ++ (p, y) :: s2))) by (rewrite AD; apply in_or_app; right; left; reflexivity).
    destruct (node_block c sz w l a _ p K PIN) as (b & B & HP & HQ). destruct EX as [XL XB].
    destruct (write_ok c PL RM x (lh_heap w) l b (p + 16) R B ltac:(lia) ltac:(lia) XB) as (h' & E & R' & F & WH & WO).
    exists h'. split; [exact E|]. set (w' := LH h' (lh_words w) (lh_lists w)).
    assert (MEM : forall d z, In d l -> hd_ptr d <= z < hd_ptr d + hd_req d -> hd_ptr d <> p \/ z < p + 16 -> h_mem h' z = h_mem (lh_heap w) z).
    { intros d z D Z O. apply WO. destruct (Z.eq_dec (hd_ptr d) p) as [EQ|NE]; [lia|].
      rewrite <- HP in NE. pose proof (blocks_apart c PL RM _ l d b R D B NE) as DJ. unfold disjoint in DJ. lia. }
    assert (WD : forall q k, In q (addrs (s1 ++ (p, y) :: s2)) -> k = 0 \/ k = 8 -> word w' (q + k) = word w (q + k)).
    { intros q k Q KK. destruct (node_block c sz w l a _ q K Q) as (d & D & DP & DQ). unfold HeapListModel.word.
      rewrite (owned_in c PL RM _ l d (q + k) R D) by lia. apply rd_ext. intros z Z. apply (MEM d); [exact D|lia|]. destruct (Z.eq_dec (hd_ptr d) p); [right; lia|left; assumption]. }
    assert (WA : forall k, k = 0 \/ k = 8 \/ k = 16 -> word w' (a + k) = word w (a + k)).
    { intros k KK. unfold HeapListModel.word. rewrite place_out by (auto; lia). reflexivity. }
    assert (NEW : list_ok w' l a (s1 ++ (p, x) :: s2)).
    { pose proof (lk_links _ _ _ _ _ _ K) as LK. pose proof (lk_nodup _ _ _ _ _ _ K) as ND. constructor.
      - rewrite AD. rewrite AD in LK. apply (links_ext _ _ _ _ LK).
        + rewrite <- (AD y). intros q [<-|Q]; [rewrite <- (Z.add_0_r a); apply WA; auto|rewrite <- (Z.add_0_r q); apply WD; auto].
        + rewrite <- (AD y). intros q Q. apply in_app_or in Q. destruct Q as [Q|[<-|[]]]; [apply WD; auto|apply WA; auto].
      - rewrite WA by auto. rewrite (lk_size _ _ _ _ _ _ K), !app_length. reflexivity.
      - rewrite AD in ND. intros e IE. apply in_app_or in IE. assert (IE' : e = (p, x) \/ In e (s1 ++ s2)) by (destruct IE as [IE|[<-|IE]]; auto using in_or_app). destruct IE' as [->|IE'].
        + split; [split; assumption|]. cbn [fst snd]. split; [|exists b; auto]. replace (Z.to_nat sz) with (length x) by lia. apply read_back. exact WH.
        + assert (IE2 : In e (s1 ++ (p, y) :: s2)) by (apply in_app_or in IE'; apply in_or_app; destruct IE'; [auto|right; right; assumption]).
          destruct (lk_nodes _ _ _ _ _ _ K e IE2) as (H1 & H2 & d & D & DP & DQ). split; [exact H1|]. split; [|exists d; auto].
          rewrite <- H2. apply read_ext. intros j J. apply (MEM d); [exact D|lia|]. left. rewrite DP. intros EQ.
          apply NoDup_remove_2 in ND. apply ND. rewrite <- EQ. unfold addrs. rewrite <- map_app. apply in_map, IE'.
      - rewrite AD. rewrite AD in ND. exact ND. }
    destruct (linv_set c sz PL RM SP w l lo ss i a _ w' l (s1 ++ (p, x) :: s2) I EA ES R' eq_refl) as [I' LO].
    - reflexivity.
    - intros d D NI. split; [exact D|]. intros z Z. apply (MEM d z D Z). left. intros EQ. apply NI. rewrite EQ. exact PIN.
    - intros d D. rewrite !AD. destruct (in_dec Z.eq_dec (hd_ptr d) (addrs s1 ++ p :: addrs s2)); auto.
    - exact NEW.
    - rewrite !AD. auto.
    - auto.
  Qed.
End HList.
