(** deallocate refines "mark free, then merge neighbours" on block lists. *)
From Verif Require Export HeapProofs2.

(** ** abstract operation *)
Fixpoint coalesce (bl : list blk) : list blk :=
  match bl with
  | [] => []
  | b :: t =>
      match coalesce t with
      | [] => [b]
      | b2 :: t' =>
          if b_used b || b_used b2 then b :: b2 :: t'
          else Blk (b_addr b) (b_len b + b_len b2) false :: t'
      end
  end.

Definition mark (a : Z) (b : blk) : blk :=
  if b_addr b =? a then Blk (b_addr b) (b_len b) false else b.

Definition a_free (a : Z) (bl : list blk) : list blk := coalesce (map (mark a) bl).

Lemma coalesce_noadj bl : no_adj bl -> coalesce bl = bl.
Proof.
  induction bl as [|b bl IH]; [reflexivity|]. intros H. cbn [coalesce].
  destruct bl as [|b2 bl]; [reflexivity|].
  destruct H as [U H]. rewrite IH by exact H. rewrite U. reflexivity.
Qed.

Lemma coalesce_app l1 l2 r R :
  coalesce l2 = r :: R -> no_adj (l1 ++ [r]) -> coalesce (l1 ++ l2) = l1 ++ r :: R.
Proof.
  intros E. induction l1 as [|b l1 IH]; [intros _; exact E|].
  intros H. cbn [app coalesce].
  destruct l1 as [|b2 l1].
  - cbn [app] in *. rewrite E. destruct H as [U _]. rewrite U. reflexivity.
  - cbn [app] in H. destruct H as [U H]. cbn [app] in IH. cbn [app].
    rewrite IH by exact H. rewrite U. reflexivity.
Qed.

(** ** replacing a stretch of blocks *)
Lemma NoDup_app_l {A} (l1 l2 : list A) : NoDup (l1 ++ l2) -> NoDup l1.
Proof.
  induction l1 as [|x l1 IH]; cbn; [constructor|].
  intros H. inversion H as [|? ? NI ND]; subst. constructor; [|auto].
  intros I. apply NI, in_or_app. auto.
Qed.

Lemma head_addr_app f1 f2 e : head_addr (f1 ++ f2) e = head_addr f1 (head_addr f2 e).
Proof. destruct f1 as [|[a s] f1]; reflexivity. Qed.

Lemma mrepr_replace c m M k1 old new k2 x y :
  geo c -> mrepr c m (k1 ++ old ++ k2) ->
  tiles x old y -> tiles (area_start c) k1 x -> tiles y k2 (area_end c) -> tiles x new y ->
  no_adj (k1 ++ new ++ k2) ->
  let pp := last_addr (frees k1) (c_xs c) in
  (forall z, ~ (pp <= z < pp + 8) -> ~ (x <= z < y) -> M z = m z) ->
  chain M pp (frees new) (head_addr (frees k2) (area_end c)) ->
  (forall b, In b new -> hdr_used M b) ->
  mrepr c M (k1 ++ new ++ k2).
Proof.
  intros G R TO T1 T2 TN NA pp FR CN UN.
  pose proof (tiles_le _ _ _ T1) as L1. pose proof (tiles_le _ _ _ T2) as L2.
  pose proof (tiles_le _ _ _ TO) as LO.
  pose proof (tiles_mod _ _ _ T1 (g_startmod c G)) as XM.
  pose proof (tiles_mod _ _ _ TO XM) as YM.
  assert (PP : (In pp (addrs (frees k1)) /\ area_start c <= pp /\ pp + 16 <= x /\ pp mod 8 = 0)
               \/ pp = c_xs c).
  { pose proof (last_addr_in (frees k1) (c_xs c)) as [X|X]; fold pp in X; [right; auto|left].
    pose proof (frees_addrs_range _ _ _ _ T1 (g_startmod c G) X). tauto. }
  assert (FRW : forall z, z mod 8 = 0 -> z <> pp -> (z + 8 <= x \/ y <= z) -> rd M z = rd m z).
  { intros z Z1 Z2 Z3. apply rd_ext. intros q Q.
    assert (pp mod 8 = 0) by (destruct PP as [?|E]; [tauto|rewrite E; apply G]).
    apply FR; lia. }
  pose proof (r_chain _ _ _ R) as CH. rewrite !frees_app in CH.
  apply chain_app in CH. fold pp in CH. destruct CH as (C1 & CH).
  apply chain_app in CH. destruct CH as (C2 & C3).
  assert (ND1 : NoDup (c_xs c :: addrs (frees k1))).
  { constructor; [|eapply frees_nodup; [exact T1|apply G]].
    intros I. pose proof (frees_addrs_range _ _ _ _ T1 (g_startmod c G) I). geo_facts G. lia. }
  (* an address inside k1 or the list head is not the size word of another one *)
  assert (SEP : forall b, In b k1 -> b_addr b + 8 <> pp).
  { intros b I E. destruct PP as [(P & P1 & P2 & P3)|P].
    - apply in_addrs_frees in P. destruct P as (t & P).
      pose proof (tiles_in _ _ _ _ T1 (g_startmod c G) I).
      pose proof (tiles_in _ _ _ _ T1 (g_startmod c G) P).
      pose proof (tiles_sep _ _ _ _ _ T1 I P) as [S|S]; [subst b|]; cbn [b_addr b_len] in *; lia.
    - pose proof (tiles_in _ _ _ _ T1 (g_startmod c G) I). geo_facts G. lia. }
  constructor.
  - apply tiles_app. exists x. split; [exact T1|]. apply tiles_app. exists y. auto.
  - exact NA.
  - geo_facts G. rewrite FRW; [apply (r_xs _ _ _ R)| | |]; lia.
  - geo_facts G. rewrite FRW; [apply (r_endsize _ _ _ R)| | |]; lia.
  - geo_facts G. rewrite FRW; [apply (r_endnext _ _ _ R)| | |]; lia.
  - intros b I. apply in_app_or in I. destruct I as [I|I].
    + intros U. pose proof (tiles_in _ _ _ _ T1 (g_startmod c G) I).
      assert (b_addr b <> pp).
      { intros E. destruct PP as [(P & P1 & P2 & P3)|P]; [|geo_facts G; lia].
        apply in_addrs_frees in P. destruct P as (t & P).
        pose proof (tiles_in _ _ _ _ T1 (g_startmod c G) P).
        pose proof (tiles_sep _ _ _ _ _ T1 I P) as [S|S]; [subst b; discriminate U|].
        cbn [b_addr b_len] in *; lia. }
      pose proof (SEP _ I).
      rewrite !FRW by lia. apply (r_used _ _ _ R); [apply in_or_app; auto|exact U].
    + apply in_app_or in I. destruct I as [I|I]; [apply UN, I|].
      intros U. pose proof (tiles_in _ _ _ _ T2 YM I).
      rewrite !FRW by (geo_facts G; lia).
      apply (r_used _ _ _ R); [|exact U].
      apply in_or_app; right. apply in_or_app; right. exact I.
  - rewrite !frees_app. apply chain_app. fold pp. rewrite head_addr_app.
    split; [|apply chain_app; split].
    + eapply chain_relink; [exact C1|exact ND1| | |exact (chain_next _ _ _ _ CN)].
      * intros q [Q|Q] NQ.
        -- subst q. apply FRW; [apply G|exact NQ|geo_facts G; lia].
        -- pose proof (frees_addrs_range _ _ _ _ T1 (g_startmod c G) Q).
           apply FRW; [lia|exact NQ|lia].
      * intros q Q. pose proof (frees_addrs_range _ _ _ _ T1 (g_startmod c G) Q).
        apply in_addrs_frees in Q. destruct Q as (t & Q). pose proof (SEP _ Q) as S. cbn in S.
        apply FRW; [lia|exact S|lia].
    + exact CN.
    + pose proof (chain_last _ _ _ _ CN) as CL.
      clear - C3 FRW CL T2 YM G PP L1 L2 LO.
      assert (K : forall q, In q (addrs (frees k2)) -> rd M q = rd m q /\ rd M (q + 8) = rd m (q + 8)).
      { intros q Q. pose proof (frees_addrs_range _ _ _ _ T2 YM Q).
        geo_facts G. split; apply FRW; lia. }
      destruct (frees k2) as [|[q t] f]; cbn [chain head_addr] in *; [exact CL|].
      destruct C3 as (_ & S & C3). split; [exact CL|]. split.
      * rewrite (proj2 (K q (or_introl eq_refl))). exact S.
      * eapply chain_ext; [exact C3| |]; intros z Z; apply K.
        -- destruct Z as [Z|Z]; [left; exact Z|right; exact Z].
        -- right; exact Z.
Qed.

(** ** the position search *)
Lemma find_pos_spec c m e blk f2 :
  geo c ->
  forall f1 fuel prev,
  chain m prev (f1 ++ f2) e ->
  (forall q, In q (prev :: addrs f1) -> hdr_ok c q) ->
  (forall q, In q (addrs f1) -> q < blk) ->
  blk <= head_addr f2 e ->
  (length f1 < fuel)%nat ->
  find_pos fuel c m prev blk = Ok (last_addr f1 prev).
Proof.
  intros G. induction f1 as [|[a s] f1 IH]; intros fuel prev C HO LT GE L;
    (destruct fuel as [|fuel]; [cbn in L; lia|]); cbn [find_pos].
  - rewrite ld_next_ok by (auto; apply HO; left; reflexivity). cbn [bind].
    cbn [app] in C. rewrite (chain_next _ _ _ _ C), prot_prot.
    replace (head_addr f2 e <? blk) with false by lia. reflexivity.
  - rewrite ld_next_ok by (auto; apply HO; left; reflexivity). cbn [bind].
    cbn [app chain] in C. destruct C as (N & S & C). rewrite N, prot_prot.
    replace (a <? blk) with true.
    2:{ symmetry. apply Z.ltb_lt, LT. left; reflexivity. }
    cbn [last_addr]. apply IH; auto.
    + intros q Q. apply HO. right. exact Q.
    + intros q Q. apply LT. right. exact Q.
    + cbn in L. lia.
Qed.

Lemma head_addr_lo y k2 e : tiles y k2 e -> y mod 8 = 0 -> y <= head_addr (frees k2) e <= e.
Proof.
  intros T M. pose proof (tiles_le _ _ _ T).
  destruct (frees k2) as [|[q t] f] eqn:F; cbn [head_addr]; [lia|].
  assert (I : In q (addrs (frees k2))) by (rewrite F; left; reflexivity).
  pose proof (frees_addrs_range _ _ _ _ T M I). lia.
Qed.

Lemma rd_addr_inj m a b : a = b -> rd m a = rd m b. Proof. intros ->; reflexivity. Qed.

Lemma list_last_cases {A} (l : list A) : l = [] \/ exists l' x, l = l' ++ [x].
Proof.
  induction l as [|b l [->|(l' & x & ->)]]; [left; reflexivity| |].
  - right. exists [], b. reflexivity.
  - right. exists (b :: l'), x. reflexivity.
Qed.

(** ** inserting a block *)
Lemma insert_spec c m l1 a s l2 :
  geo c -> mrepr c m (l1 ++ Blk a s true :: l2) ->
  let p := last_addr (frees l1) (c_xs c) in
  exists M,
    prv_insert_block_into_free_list c (wr m (a + 8) s) (area_end c) a = Ok M /\
    mrepr c M (coalesce (l1 ++ Blk a s false :: l2)) /\
    0 <= rd M (a + 8) < 2 ^ 63 /\
    (rd M (p + 8) = rd m (p + 8) \/ 0 <= rd M (p + 8) < 2 ^ 63) /\
    (forall x, ~ (p <= x < p + 16) -> ~ (a <= x < a + 16) -> M x = m x).
Proof.
  intros G R p.
  pose proof (r_tiles _ _ _ R) as T.
  pose proof (pred_facts c l1 _ l2 G T) as PF. cbn zeta in PF. fold p in PF.
  destruct PF as (PO & PA & PR & PS). cbn [b_addr] in PA.
  pose proof (tiles_mid _ _ _ _ _ T) as (T1 & A16 & AM & T2). cbn [b_addr b_len] in *.
  pose proof (tiles_le _ _ _ T1) as L1. pose proof (tiles_le _ _ _ T2) as L2.
  pose proof (tiles_mod _ _ _ T1 (g_startmod c G)) as AMOD.
  assert (ASM : (a + s) mod 8 = 0) by lia.
  assert (AO : hdr_ok c a) by (geo_facts G; split; [lia|left; lia]).
  assert (PM : p mod 8 = 0) by apply PO.
  pose proof (r_noadj _ _ _ R) as NA.
  pose proof (proj1 (no_adj_mid _ _ _) NA) as [NA1 NA2].
  pose proof (r_chain _ _ _ R) as CH.
  rewrite frees_app in CH. cbn [frees b_used] in CH.
  pose proof (proj1 (chain_app _ _ _ _ _) CH) as [C1 C2]. fold p in C2.
  set (nx := head_addr (frees l2) (area_end c)) in *.
  pose proof (head_addr_lo _ _ _ T2 ASM) as NXR. fold nx in NXR.
  assert (NXU : 0 <= prot nx < W64) by (apply prot_range; geo_facts G; lia).
  assert (AU : 0 <= prot a < W64) by (apply prot_range; geo_facts G; lia).
  assert (SU : 0 <= s < W64) by (geo_facts G; lia).
  assert (PN : rd m p = prot nx) by (apply (chain_next _ _ _ _ C2)).
  set (m0 := wr m (a + 8) s).
  assert (M0 : forall z, z mod 8 = 0 -> z <> a + 8 -> rd m0 z = rd m z).
  { intros z Z1 Z2. unfold m0. apply rd_wr_other. lia. }
  assert (M0S : rd m0 (a + 8) = s) by (unfold m0; apply rd_wr_same; exact SU).
  assert (FP : find_pos (walk_fuel c) c m0 (c_xs c) a = Ok p).
  { apply (find_pos_spec c m0 (area_end c) a (frees l2) G).
    - eapply chain_ext; [exact CH| |].
      + intros q [Q|Q]; apply M0; try (geo_facts G; lia).
        * unfold addrs in Q; rewrite map_app in Q. apply in_app_or in Q. destruct Q as [Q|Q].
          -- apply (frees_addrs_range _ _ _ _ T1 (g_startmod c G) Q).
          -- apply (frees_addrs_range _ _ _ _ T2 ASM Q).
        * unfold addrs in Q; rewrite map_app in Q. apply in_app_or in Q. destruct Q as [Q|Q].
          -- pose proof (frees_addrs_range _ _ _ _ T1 (g_startmod c G) Q). lia.
          -- pose proof (frees_addrs_range _ _ _ _ T2 ASM Q). lia.
      + intros q Q. unfold addrs in Q; rewrite map_app in Q. apply in_app_or in Q. destruct Q as [Q|Q].
        * pose proof (frees_addrs_range _ _ _ _ T1 (g_startmod c G) Q). apply M0; lia.
        * pose proof (frees_addrs_range _ _ _ _ T2 ASM Q). apply M0; lia.
    - intros q [Q|Q]; [subst q; apply hdr_ok_xs, G|].
      pose proof (frees_addrs_range _ _ _ _ T1 (g_startmod c G) Q). geo_facts G.
      split; [lia|left; lia].
    - intros q Q. pose proof (frees_addrs_range _ _ _ _ T1 (g_startmod c G) Q). lia.
    - fold nx. lia.
    - pose proof (frees_len _ _ _ T1). unfold walk_fuel. geo_facts G. lia. }
  unfold prv_insert_block_into_free_list. fold m0. rewrite FP. cbn [bind].
  rewrite (ld_size_ok c m0 p) by assumption. cbn [bind].
  rewrite (M0 (p + 8)) by lia.
  (* the next block *)
  assert (NEXT : (exists u l2', l2 = Blk (a + s) u false :: l2' /\ nx = a + s) \/
                 (l2 = [] /\ nx = area_end c /\ a + s = area_end c) \/
                 (exists b l2', l2 = b :: l2' /\ b_used b = true /\ a + s < nx)).
  { destruct l2 as [|[ba bu us] l2']; cbn [tiles b_addr b_len] in T2.
    - right. left. auto.
    - destruct T2 as (-> & U16 & UM & T2). destruct us.
      + right. right. eexists _, _. split; [reflexivity|]. split; [reflexivity|].
        unfold nx. cbn [frees b_used]. assert (MM : (a + s + bu) mod 8 = 0) by lia.
        pose proof (head_addr_lo _ _ _ T2 MM). lia.
      + left. eexists _, _. split; [reflexivity|]. reflexivity. }
  (* the previous block *)
  assert (PREV : (exists t l1', l1 = l1' ++ [Blk p t false] /\ p + t = a) \/
                 (u64 (p + rd m (p + 8)) =? a) = false /\
                 (l1 = [] \/ exists l1' b, l1 = l1' ++ [b] /\ b_used b = true)).
  { destruct (list_last_cases l1) as [->|(l1' & b & E)].
    - right. split; [|left; reflexivity].
      unfold p. cbn [frees last_addr]. rewrite (r_xs _ _ _ R).
      rewrite u64_id by (geo_facts G; lia). geo_facts G. lia.
    - destruct (b_used b) eqn:U.
      + right. split; [|right; eauto].
        pose proof (last_addr_in (frees l1) (c_xs c)) as [X|X]; fold p in X.
        * rewrite <- X, (r_xs _ _ _ R). rewrite u64_id by (geo_facts G; lia). geo_facts G. lia.
        * apply in_addrs_frees in X. destruct X as (t & X).
          assert (SZ : rd m (p + 8) = t).
          { eapply chain_size; [exact CH|]. apply in_or_app. left. apply in_frees. exact X. }
          rewrite SZ. pose proof (tiles_in _ _ _ _ T1 (g_startmod c G) X) as XR. cbn [b_addr b_len] in XR.
          rewrite u64_id by (geo_facts G; lia).
          rewrite E in T1, X. pose proof (tiles_mid _ _ _ _ _ T1) as (K1 & K2 & K3 & K4). cbn [tiles] in K4.
          apply in_app_or in X. destruct X as [X|[X|[]]].
          -- pose proof (tiles_in _ _ _ _ K1 (g_startmod c G) X). cbn [b_addr b_len] in *. lia.
          -- subst b. discriminate U.
      + left. destruct b as [q t us]; cbn in U; subst us. exists t, l1'.
        assert (PQ : p = q).
        { unfold p. rewrite E, frees_app. cbn [frees b_used b_addr b_len]. apply last_addr_app. }
        rewrite <- PQ in E. split; [exact E|].
        rewrite E in T1. pose proof (tiles_mid _ _ _ _ _ T1) as (K1 & K2 & K3 & K4). cbn in K4. lia. }
  destruct PREV as [(t & l1' & E1 & PT)|(PNM & PUSED)].
  - (* merge with the previous block *)
    assert (SZ : rd m (p + 8) = t).
    { eapply chain_size; [exact CH|]. apply in_or_app. left. apply in_frees. rewrite E1. apply in_elt. }
    rewrite E1 in T1. pose proof (tiles_mid _ _ _ _ _ T1) as (K1 & K2 & K3 & K4). cbn [b_addr b_len] in *.
    rewrite SZ. rewrite (u64_id (p + t)) by (geo_facts G; lia).
    replace (p + t =? a) with true by lia.
    rewrite (ld_size_ok c m0 a) by assumption. cbn [bind]. rewrite M0S.
    rewrite (u64_id (t + s)) by (geo_facts G; lia).
    rewrite (st_size_ok c m0 p) by assumption. cbn [bind].
    set (m1 := wr m0 (p + 8) (t + s)).
    assert (TSU : 0 <= t + s < W64) by (geo_facts G; lia).
    rewrite (ld_size_ok c m1 p) by assumption. cbn [bind].
    replace (rd m1 (p + 8)) with (t + s) by (symmetry; unfold m1; apply rd_wr_same; exact TSU).
    rewrite (ld_next_ok c m1 p) by assumption. cbn [bind].
    replace (rd m1 p) with (prot nx).
    2:{ unfold m1. rewrite rd_wr_other by lia. rewrite M0 by lia. auto. }
    rewrite prot_prot.
    rewrite (u64_id (p + (t + s))) by (geo_facts G; lia).
    replace (p + (t + s)) with (a + s) by lia.
    rewrite Z.eqb_refl. cbn [negb].
    assert (NAp : no_adj (l1' ++ [Blk p t false])).
    { rewrite E1 in NA1. rewrite <- app_assoc in NA1. cbn [app] in NA1.
      apply no_adj_mid in NA1. tauto. }
    pose proof (tiles_le _ _ _ K1) as LK1.
    destruct NEXT as [(u & l2' & E2 & NXE)|NEXT].
    + (* and with the next one *)
      rewrite NXE, Z.eqb_refl.
      rewrite E2 in T2. cbn [tiles b_addr b_len] in T2. destruct T2 as (_ & U16 & UM & T2).
      pose proof (tiles_le _ _ _ T2) as L3.
      replace (a + s =? area_end c) with false by lia. cbn [negb].
      assert (NO : hdr_ok c (a + s)) by (geo_facts G; split; [lia|left; lia]).
      rewrite (ld_size_ok c m1 (a + s)) by assumption. cbn [bind].
      assert (SZN : rd m (a + s + 8) = u).
      { eapply chain_size; [exact CH|]. apply in_or_app. right. apply in_frees. rewrite E2. left; reflexivity. }
      replace (rd m1 (a + s + 8)) with u.
      2:{ unfold m1. rewrite rd_wr_other by lia. rewrite M0 by lia. auto. }
      rewrite (u64_id (t + s + u)) by (geo_facts G; lia).
      rewrite (st_size_ok c m1 p) by assumption. cbn [bind].
      rewrite (ld_next_ok c _ p) by assumption. cbn [bind].
      rewrite (rd_wr_other _ (p + 8) p) by lia.
      replace (rd m1 p) with (prot nx).
      2:{ unfold m1. rewrite rd_wr_other by lia. rewrite M0 by lia. auto. }
      rewrite prot_prot, NXE.
      rewrite (ld_next_ok c _ (a + s)) by assumption. cbn [bind].
      rewrite (rd_wr_other _ (p + 8) (a + s)) by lia.
      set (nn := head_addr (frees l2') (area_end c)).
      assert (MM : (a + s + u) mod 8 = 0) by lia.
      pose proof (head_addr_lo _ _ _ T2 MM) as NNR. fold nn in NNR.
      assert (NNU : 0 <= prot nn < W64) by (apply prot_range; geo_facts G; lia).
      assert (NN : rd m (a + s) = prot nn).
      { rewrite E2 in C2. cbn [frees b_used b_addr b_len chain] in C2. destruct C2 as (_ & _ & C2).
        apply (chain_next _ _ _ _ C2). }
      replace (rd m1 (a + s)) with (prot nn).
      2:{ unfold m1. rewrite rd_wr_other by lia. rewrite M0 by lia. auto. }
      rewrite (st_next_ok c _ p) by assumption. cbn [bind].
      eexists. split; [reflexivity|].
      assert (TSU2 : 0 <= t + s + u < W64) by (geo_facts G; lia).
      set (M := wr _ _ _).
      assert (FRB : forall x, ~ (p <= x < p + 16) -> ~ (a <= x < a + 16) -> M x = m x).
      { intros x X1 X2. unfold M, m1, m0. rewrite !wr_out by lia. reflexivity. }
      split; [|split; [|split; [|exact FRB]]].
      * replace (coalesce (l1 ++ Blk a s false :: l2)) with (l1' ++ [Blk p (t + s + u) false] ++ l2').
        2:{ rewrite E1, E2, <- app_assoc. cbn [app].
            symmetry. apply coalesce_app.
            - rewrite E2 in NA2. cbn [no_adj] in NA2. destruct NA2 as [_ NA2].
              cbn [coalesce]. rewrite (coalesce_noadj l2').
              2:{ destruct l2'; [exact I|]. destruct NA2. assumption. }
              destruct l2' as [|b3 l2']; cbn [b_used b_addr b_len orb].
              + f_equal. f_equal. lia.
              + destruct NA2 as [U3 _]. cbn [b_used orb] in U3. rewrite U3. cbn [b_used b_addr b_len orb].
                f_equal. f_equal. lia.
            - clear - NAp. induction l1' as [|b l IH]; [cbn; auto|].
              cbn [app] in *. destruct l as [|b2 l]; cbn [app no_adj b_used] in *; tauto. }
        apply (mrepr_replace c m M l1' [Blk p t false; Blk a s true; Blk (a + s) u false]
                 [Blk p (t + s + u) false] l2' p (a + s + u) G).
        -- rewrite E1, E2, <- app_assoc in R. exact R.
        -- cbn [tiles b_addr b_len]. repeat split; lia.
        -- exact K1.
        -- exact T2.
        -- cbn [tiles b_addr b_len]. repeat split; lia.
        -- cbn [app]. apply no_adj_mid. split.
           ++ clear - NAp. induction l1' as [|b l IH]; [cbn; auto|].
              cbn [app] in *. destruct l as [|b2 l]; cbn [app no_adj b_used] in *; tauto.
           ++ rewrite E2 in NA2. cbn [no_adj] in NA2. destruct NA2 as [_ NA2].
              destruct l2'; cbn [no_adj b_used] in *; tauto.
        -- intros z Z1 Z2. apply FRB; lia.
        -- cbn [frees b_used b_addr b_len chain].
           assert (PPN : rd m (last_addr (frees l1') (c_xs c)) = prot p).
           { rewrite E1, frees_app in C1. cbn [frees b_used b_addr b_len] in C1.
             apply chain_app in C1. cbn [head_addr chain] in C1. tauto. }
           assert (PPF : last_addr (frees l1') (c_xs c) + 16 <= p \/ a + s + u <= last_addr (frees l1') (c_xs c)).
           { pose proof (last_addr_in (frees l1') (c_xs c)) as [X|X].
             - rewrite <- X. geo_facts G. lia.
             - pose proof (frees_addrs_range _ _ _ _ K1 (g_startmod c G) X). lia. }
           repeat split.
           ++ rewrite (rd_ext M m); [exact PPN|]. intros y Y. apply FRB; lia.
           ++ unfold M. rewrite rd_wr_other by lia. apply rd_wr_same; exact TSU2.
           ++ unfold M. apply rd_wr_same. exact NNU.
        -- intros b [<-|[]]. intros U; discriminate U.
      * unfold M, m1. rewrite !rd_wr_other by lia. rewrite M0S. geo_facts G. lia.
      * right. unfold M. rewrite rd_wr_other by lia. rewrite rd_wr_same by exact TSU2. geo_facts G. lia.
    + (* not with the next one *)
      assert (STEP : (if a + s =? nx
                      then if negb (nx =? area_end c)
                           then sn <- ld_size c m1 nx;;
                                m2 <- st_size c m1 p (u64 (t + s + sn));;
                                nx2 <- ld_next c m2 p;;
                                nn <- ld_next c m2 (prot nx2);; st_next c m2 p nn
                           else st_next c m1 p (prot (area_end c))
                      else st_next c m1 p (prot nx)) = Ok (wr m1 p (prot nx))).
      { destruct NEXT as [(E2 & NXE & AE)|(b & l2' & E2 & BU & LT)].
        - rewrite NXE, AE, Z.eqb_refl. cbn [negb]. apply st_next_ok; assumption.
        - replace (a + s =? nx) with false by lia. apply st_next_ok; assumption. }
      rewrite STEP. cbn [bind].
      eexists. split; [reflexivity|].
      set (M := wr _ _ _).
      assert (FRB : forall x, ~ (p <= x < p + 16) -> ~ (a <= x < a + 16) -> M x = m x).
      { intros x X1 X2. unfold M, m1, m0. rewrite !wr_out by lia. reflexivity. }
      assert (L2U : no_adj (Blk a s false :: l2)).
      { destruct NEXT as [(E2 & NXE & AE)|(b & l2' & E2 & BU & LT)]; rewrite E2 in NA2 |- *; cbn [no_adj b_used orb] in *; tauto. }
      split; [|split; [|split; [|exact FRB]]].
      * replace (coalesce (l1 ++ Blk a s false :: l2)) with (l1' ++ [Blk p (t + s) false] ++ l2).
        2:{ rewrite E1, <- app_assoc. cbn [app]. symmetry. apply coalesce_app.
            - cbn [coalesce]. rewrite (coalesce_noadj l2).
              2:{ destruct l2; [exact I|]. destruct L2U. assumption. }
              destruct l2 as [|b3 l2]; cbn [b_used b_addr b_len orb]; [reflexivity|].
              destruct L2U as [U3 _]. cbn [b_used orb] in U3. rewrite U3. reflexivity.
            - clear - NAp. induction l1' as [|b l IH]; [cbn; auto|].
              cbn [app] in *. destruct l as [|b2 l]; cbn [app no_adj b_used] in *; tauto. }
        apply (mrepr_replace c m M l1' [Blk p t false; Blk a s true] [Blk p (t + s) false] l2 p (a + s) G).
        -- rewrite E1, <- app_assoc in R. exact R.
        -- cbn [tiles b_addr b_len]. repeat split; lia.
        -- exact K1.
        -- exact T2.
        -- cbn [tiles b_addr b_len]. repeat split; lia.
        -- cbn [app]. apply no_adj_mid. split.
           ++ clear - NAp. induction l1' as [|b l IH]; [cbn; auto|].
              cbn [app] in *. destruct l as [|b2 l]; cbn [app no_adj b_used] in *; tauto.
           ++ destruct l2; cbn [no_adj b_used] in *; tauto.
        -- intros z Z1 Z2. apply FRB; lia.
        -- cbn [frees b_used b_addr b_len chain].
           assert (PPN : rd m (last_addr (frees l1') (c_xs c)) = prot p).
           { rewrite E1, frees_app in C1. cbn [frees b_used b_addr b_len] in C1.
             apply chain_app in C1. cbn [head_addr chain] in C1. tauto. }
           assert (PPF : last_addr (frees l1') (c_xs c) + 16 <= p \/ a + s <= last_addr (frees l1') (c_xs c)).
           { pose proof (last_addr_in (frees l1') (c_xs c)) as [X|X].
             - rewrite <- X. geo_facts G. lia.
             - pose proof (frees_addrs_range _ _ _ _ K1 (g_startmod c G) X). lia. }
           repeat split.
           ++ rewrite (rd_ext M m); [exact PPN|]. intros y Y. apply FRB; lia.
           ++ unfold M. rewrite rd_wr_other by lia. apply rd_wr_same; exact TSU.
           ++ unfold M. apply rd_wr_same. exact NXU.
        -- intros b [<-|[]]. intros U; discriminate U.
      * unfold M, m1. rewrite !rd_wr_other by lia. rewrite M0S. geo_facts G. lia.
      * right. unfold M. rewrite rd_wr_other by lia. unfold m1. rewrite rd_wr_same by exact TSU. geo_facts G. lia.
  - (* no merge with the previous block *)
    rewrite PNM. cbn [bind].
    rewrite (ld_size_ok c m0 a) by assumption. cbn [bind]. rewrite M0S.
    rewrite (ld_next_ok c m0 p) by assumption. cbn [bind].
    rewrite (M0 p) by lia. rewrite PN, prot_prot.
    rewrite (u64_id (a + s)) by (geo_facts G; lia).
    assert (PAN : (p =? a) = false) by lia.
    assert (NAa : no_adj (l1 ++ [Blk a s false])).
    { destruct PUSED as [->|(l1' & b & -> & BU)]; [cbn; auto|].
      rewrite <- app_assoc in NA1 |- *. cbn [app] in NA1 |- *.
      apply no_adj_mid in NA1. apply no_adj_mid. split; [tauto|].
      cbn. rewrite BU. auto. }
    assert (PPF : p + 16 <= a \/ area_end c + 16 <= p) by (clear - PA; tauto).
    destruct NEXT as [(u & l2' & E2 & NXE)|NEXT].
    + rewrite NXE, Z.eqb_refl.
      rewrite E2 in T2. cbn [tiles b_addr b_len] in T2. destruct T2 as (_ & U16 & UM & T2).
      pose proof (tiles_le _ _ _ T2) as L3.
      replace (a + s =? area_end c) with false by lia. cbn [negb].
      assert (NO : hdr_ok c (a + s)) by (geo_facts G; split; [lia|left; lia]).
      rewrite (ld_size_ok c m0 (a + s)) by assumption. cbn [bind].
      assert (SZN : rd m (a + s + 8) = u).
      { eapply chain_size; [exact CH|]. apply in_or_app. right. apply in_frees. rewrite E2. left; reflexivity. }
      rewrite (M0 (a + s + 8)) by lia. rewrite SZN.
      rewrite (u64_id (s + u)) by (geo_facts G; lia).
      rewrite (st_size_ok c m0 a) by assumption. cbn [bind].
      rewrite (ld_next_ok c _ p) by assumption. cbn [bind].
      rewrite (rd_wr_other _ (a + 8) p) by lia. rewrite (M0 p) by lia.
      rewrite PN, prot_prot, NXE.
      rewrite (ld_next_ok c _ (a + s)) by assumption. cbn [bind].
      rewrite (rd_wr_other _ (a + 8) (a + s)) by lia. rewrite (M0 (a + s)) by lia.
      set (nn := head_addr (frees l2') (area_end c)).
      assert (MM : (a + s + u) mod 8 = 0) by lia.
      pose proof (head_addr_lo _ _ _ T2 MM) as NNR. fold nn in NNR.
      assert (NNU : 0 <= prot nn < W64) by (apply prot_range; geo_facts G; lia).
      assert (NN : rd m (a + s) = prot nn).
      { rewrite E2 in C2. cbn [frees b_used b_addr b_len chain] in C2. destruct C2 as (_ & _ & C2).
        apply (chain_next _ _ _ _ C2). }
      rewrite NN.
      rewrite (st_next_ok c _ a) by assumption. cbn [bind].
      rewrite PAN. cbn [negb]. rewrite (st_next_ok c _ p) by assumption.
      eexists. split; [reflexivity|].
      assert (SU2 : 0 <= s + u < W64) by (geo_facts G; lia).
      set (M := wr (wr _ _ _) _ _).
      assert (FRB : forall x, ~ (p <= x < p + 8) -> ~ (a <= x < a + 16) -> M x = m x).
      { intros x X1 X2. unfold M, m0. rewrite !wr_out by lia. reflexivity. }
      split; [|split; [|split]].
      * replace (coalesce (l1 ++ Blk a s false :: l2)) with (l1 ++ [Blk a (s + u) false] ++ l2').
        2:{ rewrite E2. symmetry. apply coalesce_app.
            - rewrite E2 in NA2. cbn [no_adj] in NA2. destruct NA2 as [_ NA2].
              cbn [coalesce]. rewrite (coalesce_noadj l2').
              2:{ destruct l2'; [exact I|]. destruct NA2. assumption. }
              destruct l2' as [|b3 l2']; cbn [b_used b_addr b_len orb]; [reflexivity|].
              destruct NA2 as [U3 _]. cbn [b_used orb] in U3. rewrite U3. cbn [b_used b_addr b_len orb].
              reflexivity.
            - clear - NAa. induction l1 as [|b l IH]; [cbn; auto|].
              cbn [app] in *. destruct l as [|b2 l]; cbn [app no_adj b_used] in *; tauto. }
        apply (mrepr_replace c m M l1 [Blk a s true; Blk (a + s) u false] [Blk a (s + u) false] l2'
                 a (a + s + u) G).
        -- rewrite E2 in R. exact R.
        -- cbn [tiles b_addr b_len]. repeat split; lia.
        -- exact T1.
        -- exact T2.
        -- cbn [tiles b_addr b_len]. repeat split; lia.
        -- cbn [app]. apply no_adj_mid. split.
           ++ clear - NAa. induction l1 as [|b l IH]; [cbn; auto|].
              cbn [app] in *. destruct l as [|b2 l]; cbn [app no_adj b_used] in *; tauto.
           ++ rewrite E2 in NA2. cbn [no_adj] in NA2. destruct NA2 as [_ NA2].
              destruct l2'; cbn [no_adj b_used] in *; tauto.
        -- fold p. intros z Z1 Z2. apply FRB; lia.
        -- fold p. cbn [frees b_used b_addr b_len chain]. fold nn.
           repeat split.
           ++ unfold M. apply rd_wr_same. exact AU.
           ++ unfold M. rewrite (rd_wr_other _ p) by lia. rewrite rd_wr_other by lia.
              apply rd_wr_same; exact SU2.
           ++ unfold M. rewrite (rd_wr_other _ p) by lia. apply rd_wr_same. exact NNU.
        -- intros b [<-|[]]. intros U; discriminate U.
      * unfold M. rewrite (rd_wr_other _ p), (rd_wr_other _ a) by lia.
        rewrite rd_wr_same by exact SU2. geo_facts G. lia.
      * left. apply rd_ext. intros y Y. apply FRB; lia.
      * intros x X1 X2. apply FRB; lia.
    + assert (STEP : (if a + s =? nx
                      then if negb (nx =? area_end c)
                           then sn <- ld_size c m0 nx;;
                                m2 <- st_size c m0 a (u64 (s + sn));;
                                nx2 <- ld_next c m2 p;;
                                nn <- ld_next c m2 (prot nx2);; st_next c m2 a nn
                           else st_next c m0 a (prot (area_end c))
                      else st_next c m0 a (prot nx)) = Ok (wr m0 a (prot nx))).
      { destruct NEXT as [(E2 & NXE & AE)|(b & l2' & E2 & BU & LT)].
        - rewrite NXE, AE, Z.eqb_refl. cbn [negb]. apply st_next_ok; assumption.
        - replace (a + s =? nx) with false by lia. apply st_next_ok; assumption. }
      rewrite STEP. cbn [bind].
      rewrite PAN. cbn [negb]. rewrite (st_next_ok c _ p) by assumption.
      eexists. split; [reflexivity|].
      set (M := wr (wr _ _ _) _ _).
      assert (FRB : forall x, ~ (p <= x < p + 8) -> ~ (a <= x < a + 16) -> M x = m x).
      { intros x X1 X2. unfold M, m0. rewrite !wr_out by lia. reflexivity. }
      assert (L2U : no_adj (Blk a s false :: l2)).
      { destruct NEXT as [(E2 & NXE & AE)|(b & l2' & E2 & BU & LT)]; rewrite E2 in NA2 |- *; cbn [no_adj b_used orb] in *; tauto. }
      split; [|split; [|split]].
      * replace (coalesce (l1 ++ Blk a s false :: l2)) with (l1 ++ [Blk a s false] ++ l2).
        2:{ symmetry. apply coalesce_noadj. apply no_adj_mid. auto. }
        apply (mrepr_replace c m M l1 [Blk a s true] [Blk a s false] l2 a (a + s) G).
        -- exact R.
        -- cbn [tiles b_addr b_len]. repeat split; lia.
        -- exact T1.
        -- exact T2.
        -- cbn [tiles b_addr b_len]. repeat split; lia.
        -- cbn [app]. apply no_adj_mid. auto.
        -- fold p. intros z Z1 Z2. apply FRB; lia.
        -- fold p. cbn [frees b_used b_addr b_len chain]. fold nx.
           repeat split.
           ++ unfold M. apply rd_wr_same. exact AU.
           ++ unfold M. rewrite (rd_wr_other _ p) by lia. rewrite rd_wr_other by lia. exact M0S.
           ++ unfold M. rewrite (rd_wr_other _ p) by lia. apply rd_wr_same. exact NXU.
        -- intros b [<-|[]]. intros U; discriminate U.
      * unfold M. rewrite (rd_wr_other _ p), (rd_wr_other _ a) by lia. rewrite M0S. geo_facts G. lia.
      * left. apply rd_ext. intros y Y. apply FRB; lia.
      * intros x X1 X2. apply FRB; lia.
Qed.
