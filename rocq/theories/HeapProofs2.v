(** allocate refines first fit on block lists. *)
From Verif Require Export HeapProofs1.

(** ** the size adjustment *)
Lemma adjust_spec n :
  is_size n ->
  adjust n = if (0 <? n) && (needed n <? W64) then needed n else 0.
Proof.
  intros H. unfold is_size in H. unfold adjust, needed.
  rewrite hss_val. unfold heap_add_will_overflow, port_byte_alignment_mask, port_byte_alignment.
  change heap_size_max with (W64 - 1).
  rewrite !land_mask7.
  destruct (0 <? n) eqn:E0; [|cbn [andb]; lia].
  cbn [andb].
  rewrite (u64_id (W64 - 1 - 16)) by (rewrite W64_val; lia).
  destruct (W64 - 1 - 16 <? n) eqn:E1; cbn [negb].
  { replace ((n + 16 + 7) / 8 * 8 <? W64) with false; [reflexivity|].
    rewrite W64_val in *; lia. }
  rewrite (u64_id (n + 16)) by lia.
  destruct ((n + 16) mod 8 =? 0) eqn:E2; cbn [negb].
  { replace ((n + 16 + 7) / 8 * 8 <? W64) with true; [|rewrite W64_val in *; lia].
    lia. }
  rewrite (u64_id (8 - (n + 16) mod 8)) by (rewrite W64_val; lia).
  rewrite (u64_id (W64 - 1 - (8 - (n + 16) mod 8))) by (rewrite W64_val; lia).
  destruct (W64 - 1 - (8 - (n + 16) mod 8) <? n + 16) eqn:E3; cbn [negb].
  - replace ((n + 16 + 7) / 8 * 8 <? W64) with false; [reflexivity|].
    rewrite W64_val in *; lia.
  - replace ((n + 16 + 7) / 8 * 8 <? W64) with true; [|rewrite W64_val in *; lia].
    rewrite u64_id by lia. lia.
Qed.

Lemma needed_bounds n : 0 < n -> 24 <= needed n /\ n + 16 <= needed n /\ needed n mod 8 = 0
                                 /\ needed n <= n + 23.
Proof. intros H. unfold needed. lia. Qed.

(** ** the walk *)
Fixpoint ff (w prev : Z) (fl : list (Z * Z)) : option (Z * Z) :=
  match fl with
  | [] => None
  | (a, s) :: t => if s <? w then ff w a t else Some (prev, a)
  end.

Lemma ff_some w prev fl p a :
  ff w prev fl = Some (p, a) ->
  exists f1 s f2, fl = f1 ++ (a, s) :: f2 /\ w <= s /\
    (forall x t, In (x, t) f1 -> t < w) /\ p = last_addr f1 prev.
Proof.
  revert prev; induction fl as [|[b s] fl IH]; intros prev; cbn; [discriminate|].
  destruct (s <? w) eqn:E.
  - intros H. destruct (IH _ H) as (f1 & s' & f2 & -> & A & B & ->).
    exists ((b, s) :: f1), s', f2. repeat split; auto.
    intros x t [X|X]; [injection X as <- <-; lia|eauto].
  - intros [= <- <-]. exists [], s, fl. repeat split; [lia|]. intros x t [].
Qed.

Lemma ff_none w prev fl : ff w prev fl = None -> forall x t, In (x, t) fl -> t < w.
Proof.
  revert prev; induction fl as [|[b s] fl IH]; intros prev; cbn; [tauto|].
  destruct (s <? w) eqn:E; [|discriminate].
  intros H x t [X|X]; [injection X as <- <-; lia|eauto].
Qed.

Lemma find_block_spec c m w e :
  geo c -> hdr_ok c e -> e <> 0 -> rd m e = prot 0 -> rd m (e + 8) = 0 -> 0 < w ->
  forall fl fuel prev,
  chain m prev fl e ->
  (forall a, In a (addrs fl) -> hdr_ok c a /\ a <> 0) ->
  (length fl < fuel)%nat ->
  find_block fuel c m prev (head_addr fl e) w =
  match ff w prev fl with
  | Some pa => Ok pa
  | None => Ok (last_addr fl prev, e)
  end.
Proof.
  intros G HE NE EN ES W.
  induction fl as [|[a s] fl IH]; intros fuel prev C HA L;
    (destruct fuel as [|fuel]; [cbn in L; lia|]); cbn [find_block].
  - cbn [head_addr]. rewrite ld_size_ok by assumption. cbn [bind]. rewrite ES.
    replace (0 <? w) with true by lia.
    rewrite ld_next_ok by assumption. cbn [bind]. rewrite EN, Z.eqb_refl. reflexivity.
  - cbn [head_addr chain] in *. destruct C as (_ & S & C).
    destruct (HA a (or_introl eq_refl)) as [HO _].
    rewrite ld_size_ok by assumption. cbn [bind]. rewrite S.
    cbn [ff]. destruct (s <? w) eqn:E; [|reflexivity].
    rewrite ld_next_ok by assumption. cbn [bind].
    rewrite (chain_next _ _ _ _ C).
    destruct (Z.eqb_spec (prot (head_addr fl e)) (prot 0)) as [X|X].
    { exfalso. apply prot_inj in X.
      destruct fl as [|[b t] fl]; cbn in X; [contradiction|].
      destruct (HA b); [cbn; auto|contradiction]. }
    cbn [negb]. rewrite prot_prot. cbn [last_addr].
    apply IH; [exact C| |cbn in L; lia].
    intros q Q. apply HA. cbn. right. exact Q.
Qed.

(** ** abstract first fit *)
Definition taken (a s w : Z) : list blk :=
  if 32 <? s - w then [Blk a w true; Blk (a + w) (s - w) false] else [Blk a s true].

Fixpoint a_take (w : Z) (bl : list blk) : option (list blk * Z) :=
  match bl with
  | [] => None
  | b :: t =>
      if negb (b_used b) && (w <=? b_len b)
      then Some (taken (b_addr b) (b_len b) w ++ t, b_addr b)
      else match a_take w t with
           | None => None
           | Some (t', a) => Some (b :: t', a)
           end
  end.

Lemma a_take_at w l1 a s l2 :
  (forall x t, In (x, t) (frees l1) -> t < w) -> w <= s ->
  a_take w (l1 ++ Blk a s false :: l2) = Some (l1 ++ taken a s w ++ l2, a).
Proof.
  intros H W. induction l1 as [|b l1 IH]; cbn [app a_take b_used b_len b_addr negb].
  - replace (w <=? s) with true by lia. reflexivity.
  - rewrite IH.
    + destruct (b_used b) eqn:U; cbn [negb andb]; [reflexivity|].
      replace (w <=? b_len b) with false; [reflexivity|].
      assert (b_len b < w); [|lia].
      apply (H (b_addr b)). cbn. rewrite U. left. reflexivity.
    + intros x t I. apply (H x t). cbn. destruct (b_used b); [exact I|right; exact I].
Qed.

Lemma a_take_none w bl :
  (forall x t, In (x, t) (frees bl) -> t < w) -> a_take w bl = None.
Proof.
  intros H. induction bl as [|b bl IH]; cbn [a_take]; [reflexivity|].
  rewrite IH.
  - destruct (b_used b) eqn:U; cbn [negb andb]; [reflexivity|].
    replace (w <=? b_len b) with false; [reflexivity|].
    assert (b_len b < w); [|lia].
    apply (H (b_addr b)). cbn. rewrite U. left. reflexivity.
  - intros x t I. apply (H x t). cbn. destruct (b_used b); [exact I|right; exact I].
Qed.

Lemma frees_split bl f1 a s f2 :
  frees bl = f1 ++ (a, s) :: f2 ->
  exists l1 l2, bl = l1 ++ Blk a s false :: l2 /\ frees l1 = f1 /\ frees l2 = f2.
Proof.
  revert f1; induction bl as [|b bl IH]; intros f1; cbn.
  - destruct f1; discriminate.
  - destruct (b_used b) eqn:U.
    + intros H. destruct (IH _ H) as (l1 & l2 & -> & A & B).
      exists (b :: l1), l2. cbn. rewrite U. auto.
    + destruct f1 as [|x f1]; cbn.
      * intros [= <- <- <-]. exists [], bl. cbn. destruct b; cbn in *. subst. auto.
      * intros [= <- H]. destruct (IH _ H) as (l1 & l2 & -> & A & B).
        exists (b :: l1), l2. cbn. rewrite U, A. auto.
Qed.

(** ** no two adjacent free blocks *)
Lemma no_adj_mid l1 b l2 : no_adj (l1 ++ b :: l2) <-> no_adj (l1 ++ [b]) /\ no_adj (b :: l2).
Proof.
  induction l1 as [|x l1 IH]; [cbn; tauto|].
  cbn [app]. destruct l1 as [|y l1]; cbn [app] in *.
  - cbn [no_adj]. tauto.
  - change (no_adj (x :: y :: l1 ++ b :: l2)) with
      (b_used x || b_used y = true /\ no_adj (y :: l1 ++ b :: l2)).
    change (no_adj (x :: y :: l1 ++ [b])) with
      (b_used x || b_used y = true /\ no_adj (y :: l1 ++ [b])).
    rewrite IH. tauto.
Qed.

Lemma no_adj_last_used l1 b b' :
  no_adj (l1 ++ [b]) -> b_used b' = true -> no_adj (l1 ++ [b']).
Proof.
  intros H U. induction l1 as [|x l1 IH]; [cbn; auto|].
  cbn [app] in *. destruct l1 as [|y l1]; cbn [app] in *.
  - cbn in *. rewrite U. split; [apply orb_true_r|auto].
  - destruct H as [A B]. split; [exact A|]. apply IH, B.
Qed.

Lemma no_adj_first_used b b' l2 :
  no_adj (b :: l2) -> b_used b' = true -> no_adj (b' :: l2).
Proof. destruct l2 as [|y l2]; cbn; [auto|]. intros [A B] U. rewrite U. auto. Qed.

Lemma no_adj_taken l1 a s l2 w :
  no_adj (l1 ++ Blk a s false :: l2) -> no_adj (l1 ++ taken a s w ++ l2).
Proof.
  intros H. apply no_adj_mid in H. destruct H as [H1 H2].
  unfold taken. destruct (32 <? s - w); cbn [app].
  - apply no_adj_mid. split; [eapply no_adj_last_used; [exact H1|reflexivity]|].
    cbn [no_adj b_used]. split; [reflexivity|].
    destruct l2 as [|y l2]; cbn in *; auto.
  - apply no_adj_mid. split; [eapply no_adj_last_used; [exact H1|reflexivity]|].
    eapply no_adj_first_used; [exact H2|reflexivity].
Qed.

Lemma tiles_taken s0 l1 a s l2 w e :
  tiles s0 (l1 ++ Blk a s false :: l2) e -> 16 <= w -> w mod 8 = 0 ->
  tiles s0 (l1 ++ taken a s w ++ l2) e.
Proof.
  intros T W M. apply tiles_mid in T. cbn in T. destruct T as (T1 & A & B & T2).
  apply tiles_app. exists a. split; [exact T1|].
  unfold taken. destruct (32 <? s - w) eqn:E; cbn [app tiles b_addr b_len].
  - repeat split; try lia. replace (a + w + (s - w)) with (a + s) by lia. exact T2.
  - repeat split; try lia. exact T2.
Qed.

Lemma free_sum_taken l1 a s l2 w :
  free_sum (l1 ++ taken a s w ++ l2) =
  free_sum (l1 ++ Blk a s false :: l2) - (if 32 <? s - w then w else s).
Proof.
  rewrite !free_sum_app. unfold taken.
  destruct (32 <? s - w); cbn [app free_sum b_used b_len]; lia.
Qed.

Lemma in_addrs_frees q bl : In q (addrs (frees bl)) -> exists t, In (Blk q t false) bl.
Proof.
  unfold addrs. intros X. apply in_map_iff in X. destruct X as ([x t] & XE & X).
  cbn in XE. subst x. apply in_frees in X. exists t. exact X.
Qed.

Lemma tiles_sep s bl e b1 b2 :
  tiles s bl e -> In b1 bl -> In b2 bl ->
  b1 = b2 \/ (b_addr b1 + b_len b1 <= b_addr b2 \/ b_addr b2 + b_len b2 <= b_addr b1).
Proof.
  revert s; induction bl as [|b bl IH]; intros s T I1 I2; [destruct I1|].
  cbn [tiles] in T. destruct T as (A & B & C & T).
  assert (LO : forall x, In x bl -> s + b_len b <= b_addr x).
  { intros x X. apply in_split in X. destruct X as (k1 & k2 & ->).
    apply tiles_mid in T. destruct T as (T & _). apply (tiles_le _ _ _ T). }
  destruct I1 as [<-|I1], I2 as [<-|I2].
  - left; reflexivity.
  - right. left. specialize (LO _ I2). lia.
  - right. right. specialize (LO _ I1). lia.
  - eapply IH; eassumption.
Qed.

(** The predecessor of a block in the free list. *)
Lemma pred_facts c l1 b l2 :
  geo c -> tiles (area_start c) (l1 ++ b :: l2) (area_end c) ->
  let p := last_addr (frees l1) (c_xs c) in
  hdr_ok c p /\ (p + 16 <= b_addr b \/ (area_end c + 16 <= p /\ p = c_xs c)) /\ 0 < p < W64 /\
  (area_start c <= p \/ p = c_xs c).
Proof.
  intros G T p.
  pose proof (tiles_mid _ _ _ _ _ T) as (T1 & A & B & T2).
  pose proof (last_addr_in (frees l1) (c_xs c)) as I. fold p in I.
  pose proof (tiles_le _ _ _ T2).
  destruct I as [E|I].
  - rewrite <- E. pose proof (hdr_ok_xs c G). destruct G.
    pose proof (tiles_le _ _ _ T1). split; [assumption|]. split; [lia|]. split; [lia|]. right. reflexivity.
  - pose proof (frees_addrs_range _ _ _ _ T1 (g_startmod c G) I). destruct G. rewrite W64_val in *.
    repeat split; lia.
Qed.

(** ** taking a block *)
Ltac geo_facts G :=
  pose proof (g_base _ G); pose proof (g_start _ G); pose proof (g_startmod _ G);
  pose proof (g_room _ G); pose proof (g_endmod _ G); pose proof (g_end _ G);
  pose proof (g_size _ G); pose proof (g_xs _ G); pose proof (g_xsmod _ G);
  pose proof (g_top _ G).

Lemma take_block_spec c h l1 a s l2 w :
  geo c -> mrepr c (h_mem h) (l1 ++ Blk a s false :: l2) ->
  24 <= w <= s -> w mod 8 = 0 -> s <= h_free h < 2 ^ 63 ->
  exists M,
    take_block c h (last_addr (frees l1) (c_xs c)) a w =
      Ok (let f' := h_free h - (if 32 <? s - w then w else s) in
          mkHeap M (h_end h) f' (Z.min f' (h_min h)) (u64 (h_allocs h + 1)) (h_frees h)
            (h_cb h) (h_fired h), a + 16) /\
    mrepr c M (l1 ++ taken a s w ++ l2) /\
    (forall x, ~ (last_addr (frees l1) (c_xs c) <= x < last_addr (frees l1) (c_xs c) + 8) ->
               ~ (a <= x < a + s) -> M x = h_mem h x).
Proof.
  intros G R W WM HF.
  pose proof (r_tiles _ _ _ R) as T.
  pose proof (pred_facts c l1 _ l2 G T) as PF. cbn zeta in PF.
  set (p := last_addr (frees l1) (c_xs c)) in *.
  destruct PF as (PO & PA & PR & PS). cbn [b_addr] in PA.
  pose proof (tiles_mid _ _ _ _ _ T) as (T1 & A16 & AM & T2). cbn [b_addr b_len] in *.
  pose proof (tiles_le _ _ _ T1) as L1. pose proof (tiles_le _ _ _ T2) as L2.
  pose proof (tiles_mod _ _ _ T1 (g_startmod c G)) as AMOD.
  assert (AO : hdr_ok c a) by (geo_facts G; split; [lia|left; lia]).
  pose proof (r_chain _ _ _ R) as CH.
  rewrite frees_app in CH. cbn [frees b_used b_addr b_len] in CH.
  apply chain_app in CH. fold p in CH. cbn [head_addr chain] in CH.
  destruct CH as (C1 & PN & SZ & C2).
  pose proof (chain_next _ _ _ _ C2) as AN.
  set (m := h_mem h) in *.
  set (nx := head_addr (frees l2) (area_end c)) in *.
  assert (NXR : a + s <= nx <= area_end c).
  { unfold nx. destruct (frees l2) as [|[q t] f] eqn:F; cbn [head_addr]; [lia|].
    assert (I : In q (addrs (frees l2))) by (rewrite F; left; reflexivity).
    assert (M2 : (a + s) mod 8 = 0) by lia.
    pose proof (frees_addrs_range _ _ _ _ T2 M2 I). lia. }
  assert (NXU : 0 <= prot nx < W64) by (apply prot_range; geo_facts G; lia).
  assert (P0U : 0 <= prot 0 < W64) by (apply prot_range; rewrite W64_val; lia).
  assert (ASZ : 0 <= s < 2 ^ 63) by lia.
  unfold take_block. fold m.
  rewrite (ld_next_ok c m p) by assumption. cbn [bind].
  rewrite PN, prot_prot, hss_val.
  rewrite (u64_id (a + 16)) by (geo_facts G; lia).
  rewrite (ld_next_ok c m a) by assumption. cbn [bind].
  rewrite AN. fold nx.
  rewrite st_next_ok by assumption. cbn [bind].
  rewrite ld_size_ok by assumption. cbn [bind].
  rewrite rd_wr_other by lia. rewrite SZ, hmin_val.
  rewrite (u64_id (s - w)) by (rewrite W64_val; lia).
  set (m1 := wr m p (prot nx)).
  (* the l1 part of the chain and other headers, as seen by a memory [M] that
     agrees with [m] away from p and [a, a+s) *)
  assert (KEEP : forall M y,
    (forall x, x mod 8 = 0 -> x <> p -> (x + 8 <= a \/ a + s <= x) -> rd M x = rd m x) ->
    rd M p = prot y ->
    chain M (c_xs c) (frees l1) y /\
    rd M (c_xs c + 8) = 0 /\ rd M (area_end c + 8) = 0 /\ rd M (area_end c) = prot 0 /\
    (forall b, In b l1 \/ In b l2 -> hdr_used M b) /\
    (forall q, In q (addrs (frees l2)) -> rd M q = rd m q /\ rd M (q + 8) = rd m (q + 8))).
  { intros M y FR PY.
    assert (U : forall b, In b l1 \/ In b l2 -> hdr_used M b).
    { intros b I US.
      assert (IB : In b (l1 ++ Blk a s false :: l2)).
      { apply in_or_app. destruct I; [left; assumption|right; right; assumption]. }
      assert (RNG : b_addr b mod 8 = 0 /\ (b_addr b + 16 <= a \/ a + s <= b_addr b) /\
                    area_start c <= b_addr b /\ b_addr b + 16 <= area_end c).
      { destruct I as [I|I].
        - pose proof (tiles_in _ _ _ _ T1 (g_startmod c G) I). lia.
        - assert (M2 : (a + s) mod 8 = 0) by lia.
          pose proof (tiles_in _ _ _ _ T2 M2 I). lia. }
      assert (NP : b_addr b <> p /\ b_addr b + 8 <> p).
      { pose proof (last_addr_in (frees l1) (c_xs c)) as [X|X]; fold p in X.
        - geo_facts G. lia.
        - apply in_addrs_frees in X. destruct X as (t & X).
          assert (XI : In (Blk p t false) (l1 ++ Blk a s false :: l2)) by (apply in_or_app; auto).
          pose proof (tiles_sep _ _ _ _ _ T IB XI) as [E|S].
          + subst b. discriminate US.
          + pose proof (tiles_in _ _ _ _ T (g_startmod c G) IB).
            pose proof (tiles_in _ _ _ _ T (g_startmod c G) XI). cbn [b_addr b_len] in *. lia. }
      rewrite !FR by lia.
      apply (r_used _ _ _ R); assumption. }
    pose proof (frees_nodup_xs c _ G T) as ND. rewrite frees_app in ND. cbn [frees b_used] in ND.
    unfold addrs in ND. rewrite map_app in ND.
    assert (ND1 : NoDup (c_xs c :: addrs (frees l1))).
    { change (c_xs c :: addrs (frees l1)) with ([c_xs c] ++ addrs (frees l1)).
      change (NoDup (([c_xs c] ++ addrs (frees l1)) ++ map fst ((a, s) :: frees l2))) in ND.
      clear - ND. induction ([c_xs c] ++ addrs (frees l1)) as [|z zs IHz]; [constructor|].
      cbn in ND. inversion ND as [|? ? NI ND']; subst. constructor; [|auto].
      intros I. apply NI. apply in_or_app. left; exact I. }
    split.
    { eapply chain_relink; [exact C1|exact ND1| | |exact PY].
      - intros q Q NQ. destruct Q as [Q|Q].
        + subst q. apply FR; geo_facts G; try lia.
        + pose proof (frees_addrs_range _ _ _ _ T1 (g_startmod c G) Q). apply FR; [lia|exact NQ|lia].
      - intros q Q. pose proof (frees_addrs_range _ _ _ _ T1 (g_startmod c G) Q).
        apply FR; [lia| |lia].
        intros E. 
        pose proof (last_addr_in (frees l1) (c_xs c)) as [X|X]; fold p in X; [geo_facts G; lia|].
        apply in_addrs_frees in X, Q. destruct X as (t1 & X). destruct Q as (t2 & Q).
        pose proof (tiles_sep _ _ _ _ _ T1 X Q) as [E'|S].
        + injection E' as E1 E2. lia.
        + pose proof (tiles_in _ _ _ _ T1 (g_startmod c G) X).
          pose proof (tiles_in _ _ _ _ T1 (g_startmod c G) Q). cbn [b_addr b_len] in *. lia. }
    geo_facts G.
    split; [|split; [|split; [|split]]].
    - rewrite FR; [apply (r_xs _ _ _ R)| | |]; try lia.
    - rewrite FR; [apply (r_endsize _ _ _ R)| | |]; try lia.
    - rewrite FR; [apply (r_endnext _ _ _ R)| | |]; try lia.
    - exact U.
    - intros q Q. assert (M2 : (a + s) mod 8 = 0) by lia.
      pose proof (frees_addrs_range _ _ _ _ T2 M2 Q).
      split; apply FR; lia. }
  assert (PM : p mod 8 = 0) by apply PO.
  destruct (32 <? s - w) eqn:ES.
  - (* split *)
    rewrite (u64_id (a + w)) by (geo_facts G; lia).
    set (nb := a + w).
    assert (NO : hdr_ok c nb) by (unfold nb; geo_facts G; split; [lia|left; lia]).
    rewrite (st_size_ok c m1 nb) by assumption. cbn [bind].
    rewrite (st_size_ok c _ a) by assumption. cbn [bind].
    rewrite (ld_next_ok c _ p) by assumption. cbn [bind].
    rewrite (st_next_ok c _ nb) by assumption. cbn [bind].
    rewrite (st_next_ok c _ p) by assumption. cbn [bind].
    rewrite (ld_size_ok c _ a) by assumption. cbn [bind].
    assert (PNB : p + 16 <= nb \/ nb + 16 <= p) by (unfold nb; lia).
    assert (PAA : p + 16 <= a \/ a + 16 <= p) by lia.
    assert (ANB : a + 16 <= nb) by (unfold nb; lia).
    assert (WU : 0 <= w < W64) by (rewrite W64_val; lia).
    assert (SWU : 0 <= s - w < W64) by (rewrite W64_val; lia).
    assert (NBU : 0 <= prot nb < W64) by (apply prot_range; unfold nb; geo_facts G; lia).
    rewrite (rd_wr_other _ (a + 8) p) by lia.
    rewrite (rd_wr_other _ (nb + 8) p) by lia.
    replace (rd m1 p) with (prot nx) by (symmetry; unfold m1; apply rd_wr_same; exact NXU).
    rewrite (rd_wr_other _ p (a + 8)) by lia.
    rewrite (rd_wr_other _ nb (a + 8)) by lia.
    rewrite (rd_wr_same _ (a + 8)) by exact WU.
    unfold heap_allocate_block.
    rewrite (ld_size_ok c _ a) by assumption. cbn [bind].
    rewrite (rd_wr_other _ p (a + 8)) by lia.
    rewrite (rd_wr_other _ nb (a + 8)) by lia.
    rewrite (rd_wr_same _ (a + 8)) by exact WU.
    rewrite (st_size_ok c _ a) by assumption. cbn [bind].
    rewrite bit_val, lor_top by lia.
    rewrite st_next_ok by assumption. cbn [bind].
    rewrite (u64_id (h_free h - w)) by (rewrite W64_val; lia).
    assert (W2U : 0 <= w + 2 ^ 63 < W64) by (rewrite W64_val; lia).
    set (M := wr (wr (wr (wr (wr (wr m1 (nb + 8) (s - w)) (a + 8) w) nb (prot nx)) p (prot nb))
                     (a + 8) (w + 2 ^ 63)) a (prot 0)).
    assert (FRB : forall x, ~ (p <= x < p + 8) -> ~ (a <= x < a + s) -> M x = m x).
    { intros x X1 X2. unfold M, m1. rewrite !wr_out by (unfold nb; lia). reflexivity. }
    assert (FRW : forall x, x mod 8 = 0 -> x <> p -> (x + 8 <= a \/ a + s <= x) -> rd M x = rd m x).
    { intros x X1 X2 X3. apply rd_ext. intros y Y. apply FRB; lia. }
    assert (MP : rd M p = prot nb).
    { unfold M. rewrite (rd_wr_other _ a p), (rd_wr_other _ (a + 8) p) by lia. apply rd_wr_same; exact NBU. }
    assert (MA : rd M a = prot 0) by (unfold M; apply rd_wr_same; exact P0U).
    assert (MA8 : rd M (a + 8) = w + 2 ^ 63).
    { unfold M. rewrite (rd_wr_other _ a (a + 8)) by lia. apply rd_wr_same; exact W2U. }
    assert (MN : rd M nb = prot nx).
    { unfold M. rewrite (rd_wr_other _ a nb), (rd_wr_other _ (a + 8) nb), (rd_wr_other _ p nb) by lia.
      apply rd_wr_same; exact NXU. }
    assert (MN8 : rd M (nb + 8) = s - w).
    { unfold M. rewrite (rd_wr_other _ a (nb + 8)), (rd_wr_other _ (a + 8) (nb + 8)),
        (rd_wr_other _ p (nb + 8)), (rd_wr_other _ nb (nb + 8)), (rd_wr_other _ (a + 8) (nb + 8)) by lia.
      apply rd_wr_same; exact SWU. }
    exists M. split; [|split].
    + f_equal. f_equal. unfold M, m1. f_equal. destruct (Z.ltb_spec (h_free h - w) (h_min h)); lia.
    + destruct (KEEP M nb FRW MP) as (K1 & K2 & K3 & K4 & K5 & K6).
      constructor; try assumption.
      * apply tiles_taken; [exact T|lia|exact WM].
      * apply no_adj_taken. apply (r_noadj _ _ _ R).
      * intros b I. unfold taken in I. rewrite ES in I. cbn [app] in I.
        apply in_app_or in I. destruct I as [I|[I|[I|I]]].
        -- apply K5. left; exact I.
        -- subst b. intros _. cbn [b_addr b_len]. split; assumption.
        -- subst b. intros X. discriminate X.
        -- apply K5. right; exact I.
      * rewrite frees_app. unfold taken. rewrite ES. cbn [app frees b_used b_addr b_len].
        apply chain_app. fold p. cbn [head_addr chain]. fold nb.
        repeat split; [exact K1|exact MP|exact MN8|].
        { clear - C2 K6 MN AN nx.
          destruct (frees l2) as [|[q t] f] eqn:F; cbn [chain] in *.
          - exact MN.
          - destruct C2 as (_ & Q8 & C2). split; [exact MN|].
            split; [rewrite (proj2 (K6 q (or_introl eq_refl))); exact Q8|].
            eapply chain_ext; [exact C2| |].
            + intros z Z. apply K6. destruct Z as [Z|Z]; [left; exact Z|right; exact Z].
            + intros z Z. apply K6. right; exact Z. }
    + exact FRB.
  - (* whole block *)
    cbn [bind].
    rewrite (ld_size_ok c _ a) by assumption. cbn [bind].
    assert (PAA : p + 16 <= a \/ a + 16 <= p) by lia.
    unfold m1.
    rewrite (rd_wr_other _ p (a + 8)) by lia. rewrite SZ.
    unfold heap_allocate_block.
    rewrite (ld_size_ok c _ a) by assumption. cbn [bind].
    rewrite (rd_wr_other _ p (a + 8)) by lia. rewrite SZ.
    rewrite (st_size_ok c _ a) by assumption. cbn [bind].
    rewrite bit_val, lor_top by lia.
    rewrite st_next_ok by assumption. cbn [bind].
    rewrite (u64_id (h_free h - s)) by (rewrite W64_val; lia).
    assert (W2U : 0 <= s + 2 ^ 63 < W64) by (rewrite W64_val; lia).
    set (M := wr (wr (wr m p (prot nx)) (a + 8) (s + 2 ^ 63)) a (prot 0)).
    assert (FRB : forall x, ~ (p <= x < p + 8) -> ~ (a <= x < a + s) -> M x = m x).
    { intros x X1 X2. unfold M. rewrite !wr_out by lia. reflexivity. }
    assert (FRW : forall x, x mod 8 = 0 -> x <> p -> (x + 8 <= a \/ a + s <= x) -> rd M x = rd m x).
    { intros x X1 X2 X3. apply rd_ext. intros y Y. apply FRB; lia. }
    assert (MP : rd M p = prot nx).
    { unfold M. rewrite (rd_wr_other _ a p), (rd_wr_other _ (a + 8) p) by lia. apply rd_wr_same; exact NXU. }
    assert (MA : rd M a = prot 0) by (unfold M; apply rd_wr_same; exact P0U).
    assert (MA8 : rd M (a + 8) = s + 2 ^ 63).
    { unfold M. rewrite (rd_wr_other _ a (a + 8)) by lia. apply rd_wr_same; exact W2U. }
    exists M. split; [|split].
    + f_equal. f_equal. unfold M. f_equal. destruct (Z.ltb_spec (h_free h - s) (h_min h)); lia.
    + destruct (KEEP M nx FRW MP) as (K1 & K2 & K3 & K4 & K5 & K6).
      constructor; try assumption.
      * apply tiles_taken; [exact T|lia|exact WM].
      * apply no_adj_taken. apply (r_noadj _ _ _ R).
      * intros b I. unfold taken in I. rewrite ES in I. cbn [app] in I.
        apply in_app_or in I. destruct I as [I|[I|I]].
        -- apply K5. left; exact I.
        -- subst b. intros _. cbn [b_addr b_len]. split; assumption.
        -- apply K5. right; exact I.
      * rewrite frees_app. unfold taken. rewrite ES. cbn [app frees b_used b_addr b_len].
        apply chain_app. fold p. split; [exact K1|].
        { clear - C2 K6 MP AN nx.
          unfold nx in *. destruct (frees l2) as [|[q t] f] eqn:F; cbn [chain head_addr] in *.
          - exact MP.
          - destruct C2 as (_ & Q8 & C2). split; [exact MP|].
            split; [rewrite (proj2 (K6 q (or_introl eq_refl))); exact Q8|].
            eapply chain_ext; [exact C2| |].
            + intros z Z. apply K6. destruct Z as [Z|Z]; [left; exact Z|right; exact Z].
            + intros z Z. apply K6. right; exact Z. }
    + exact FRB.
Qed.

(** ** allocate *)
Definition a_alloc (bl : list blk) (n : Z) : option (list blk * Z) :=
  if (0 <? n) && (needed n <? 2 ^ 63) then a_take (needed n) bl else None.

Definition fired (h : heap) : heap := if h_cb h then fire h else h.

Lemma a_take_bound w bl bl' a :
  0 < w -> a_take w bl = Some (bl', a) ->
  exists l1 s l2, bl = l1 ++ Blk a s false :: l2 /\ w <= s /\
    (forall x t, In (x, t) (frees l1) -> t < w) /\ bl' = l1 ++ taken a s w ++ l2.
Proof.
  intros W. revert bl'; induction bl as [|b bl IH]; intros bl'; cbn [a_take]; [discriminate|].
  destruct (b_used b) eqn:U; cbn [negb andb].
  - destruct (a_take w bl) as [[t' a']|] eqn:E; [|discriminate].
    intros [= <- ->]. destruct (IH _ eq_refl) as (l1 & s & l2 & -> & A & B & ->).
    exists (b :: l1), s, l2. repeat split; auto. intros x t I. cbn in I. rewrite U in I. eauto.
  - destruct (w <=? b_len b) eqn:L.
    + intros [= <- <-]. exists [], (b_len b), bl. destruct b as [ba bs bu]; cbn in *. subst bu.
      repeat split; [lia|]. intros x t [].
    + destruct (a_take w bl) as [[t' a']|] eqn:E; [|discriminate].
      intros [= <- ->]. destruct (IH _ eq_refl) as (l1 & s & l2 & -> & A & B & ->).
      exists (b :: l1), s, l2. repeat split; auto. intros x t I. cbn in I. rewrite U in I.
      destruct I as [I|I]; [injection I as <- <-; lia|eauto].
Qed.

Lemma free_sum_in bl a s : (forall b, In b bl -> 0 <= b_len b) -> In (Blk a s false) bl -> s <= free_sum bl.
Proof.
  intros P I. apply in_split in I. destruct I as (l1 & l2 & ->).
  rewrite free_sum_app. cbn [free_sum b_used b_len].
  assert (X : forall l, (forall b, In b l -> 0 <= b_len b) -> 0 <= free_sum l).
  { induction l as [|b l IH]; cbn [free_sum]; [lia|]. intros Q.
    pose proof (Q b (or_introl eq_refl)). assert (0 <= free_sum l) by (apply IH; intros; apply Q; right; assumption).
    destruct (b_used b); lia. }
  assert (0 <= free_sum l1) by (apply X; intros; apply P, in_or_app; auto).
  assert (0 <= free_sum l2) by (apply X; intros; apply P, in_or_app; right; right; assumption).
  lia.
Qed.

Lemma allocate_spec c h bl n :
  geo c -> repr c h bl -> is_size n ->
  match a_alloc bl n with
  | None => allocate c h n = Ok (fired h, 0)
  | Some (bl', a) =>
      exists h' l1 s l2,
        allocate c h n = Ok (h', a + 16) /\ repr c h' bl' /\
        bl = l1 ++ Blk a s false :: l2 /\ bl' = l1 ++ taken a s (needed n) ++ l2 /\
        needed n <= s /\
        (forall x t, In (x, t) (frees l1) -> t < needed n) /\
        h_free h' = h_free h - (if 32 <? s - needed n then needed n else s) /\
        h_min h' = Z.min (h_free h') (h_min h) /\
        h_allocs h' = u64 (h_allocs h + 1) /\ h_frees h' = h_frees h /\
        h_cb h' = h_cb h /\ h_fired h' = h_fired h /\
        (forall x, ~ (last_addr (frees l1) (c_xs c) <= x < last_addr (frees l1) (c_xs c) + 8) ->
                   ~ (a <= x < a + s) -> h_mem h' x = h_mem h x)
  end.
Proof.
  intros G R N. pose proof (r_mem _ _ _ R) as RM. pose proof (r_tiles _ _ _ RM) as T.
  pose proof (free_sum_bound _ _ _ T) as FB.
  pose proof (r_free _ _ _ R) as RF.
  assert (F63 : h_free h < 2 ^ 63) by (geo_facts G; lia).
  assert (FAIL : allocate_core c h (adjust n) = Ok (h, 0) -> allocate c h n = Ok (fired h, 0)).
  { intros E. unfold allocate, fired. rewrite E. cbn [bind]. destruct (h_cb h); reflexivity. }
  unfold a_alloc. rewrite adjust_spec in FAIL by exact N.
  destruct (0 <? n) eqn:N0; cbn [andb] in *.
  2:{ apply FAIL. unfold allocate_core. cbn. reflexivity. }
  pose proof (needed_bounds n ltac:(lia)) as NB.
  destruct (needed n <? 2 ^ 63) eqn:N63.
  2:{ apply FAIL. destruct (needed n <? W64) eqn:N64; [|unfold allocate_core; reflexivity].
      unfold allocate_core, heap_block_size_is_valid. rewrite bit_val.
      destruct (Z.land (needed n) (2 ^ 63) =? 0) eqn:E; [|reflexivity].
      exfalso. apply Z.eqb_eq in E. apply land_top_iff in E; lia. }
  assert (NW : needed n <? W64 = true) by (rewrite W64_val; lia).
  rewrite NW in FAIL.
  set (w := needed n) in *.
  assert (CORE : allocate_core c h w =
                 if w <=? h_free h then
                   first <- ld_next c (h_mem h) (c_xs c) ;;
                   '(prev, blk) <- find_block (walk_fuel c) c (h_mem h) (c_xs c)
                                     (heap_protect_block_pointer first) w ;;
                   if negb (blk =? h_end h) then take_block c h prev blk w else Ok (h, 0)
                 else Ok (h, 0)).
  { unfold allocate_core, heap_block_size_is_valid. rewrite bit_val.
    rewrite small_land_top by lia. cbn [Z.eqb].
    replace (0 <? w) with true by lia. cbn [andb]. reflexivity. }
  assert (BIG : forall b, In b bl -> 0 <= b_len b).
  { intros b I. pose proof (tiles_in _ _ _ _ T (g_startmod c G) I). lia. }
  destruct (w <=? h_free h) eqn:WF.
  2:{ rewrite a_take_none.
      - apply FAIL. rewrite CORE. reflexivity.
      - intros x t I. apply in_frees in I. pose proof (free_sum_in _ _ _ BIG I). lia. }
  assert (XO := hdr_ok_xs c G).
  pose proof (r_chain _ _ _ RM) as CH.
  pose proof (chain_next _ _ _ _ CH) as XN.
  assert (E0 : area_end c <> 0) by (geo_facts G; lia).
  assert (FBS := find_block_spec c (h_mem h) w (area_end c) G (hdr_ok_end c G) E0
                   (r_endnext _ _ _ RM) (r_endsize _ _ _ RM) ltac:(lia)
                   (frees bl) (walk_fuel c) (c_xs c) CH).
  rewrite ld_next_ok in CORE by assumption. cbn [bind] in CORE.
  rewrite XN, prot_prot in CORE.
  rewrite FBS in CORE.
  2:{ intros q Q. pose proof (frees_addrs_range _ _ _ _ T (g_startmod c G) Q).
      geo_facts G. split; [split; [lia|left; lia]|lia]. }
  2:{ pose proof (frees_len _ _ _ T). unfold walk_fuel. geo_facts G. lia. }
  clear FBS.
  destruct (ff w (c_xs c) (frees bl)) as [[p a]|] eqn:FF.
  - apply ff_some in FF. destruct FF as (f1 & s & f2 & FE & WS & SM & ->).
    apply frees_split in FE. destruct FE as (l1 & l2 & -> & <- & <-).
    rewrite a_take_at by assumption.
    cbn [bind] in CORE.
    pose proof (tiles_mid _ _ _ _ _ T) as (T1 & A16 & AM & T2). cbn [b_addr b_len] in *.
    pose proof (tiles_le _ _ _ T2) as L2.
    rewrite (r_end _ _ _ R) in CORE.
    replace (a =? area_end c) with false in CORE by lia. cbn [negb] in CORE.
    assert (SF : s <= h_free h < 2 ^ 63).
    { split; [|lia]. rewrite RF. apply (free_sum_in _ a); [exact BIG|apply in_elt]. }
    destruct (take_block_spec c h l1 a s l2 w G RM ltac:(lia) ltac:(lia) SF) as (M & TE & MR & FR).
    rewrite TE in CORE. cbn zeta in CORE.
    assert (FS : h_free h - (if 32 <? s - w then w else s) = free_sum (l1 ++ taken a s w ++ l2)).
    { rewrite free_sum_taken, RF. reflexivity. }
    exists (mkHeap M (h_end h) (h_free h - (if 32 <? s - w then w else s))
              (Z.min (h_free h - (if 32 <? s - w then w else s)) (h_min h))
              (u64 (h_allocs h + 1)) (h_frees h) (h_cb h) (h_fired h)), l1, s, l2.
    split; [|split; [|split; [reflexivity|split; [reflexivity|split; [exact WS|split; [exact SM|]]]]]].
    + unfold allocate. rewrite adjust_spec, N0 by exact N. fold w. rewrite NW. cbn [andb].
      rewrite CORE. cbn [bind h_cb].
      pose proof (tiles_le _ _ _ T1). 
      replace (a + 16 =? 0) with false by (geo_facts G; lia). reflexivity.
    + constructor; cbn; [exact MR|apply R|exact FS].
    + cbn. repeat split; auto.
  - pose proof (ff_none _ _ _ FF) as SM. rewrite a_take_none by exact SM.
    apply FAIL. rewrite CORE. cbn [bind]. rewrite (r_end _ _ _ R), Z.eqb_refl. reflexivity.
Qed.
