(** Two threads that allocate: both get the same block. *)
From Verif Require Export HeapShareProofs.

Lemma walk_facts c h bl n h' r :
  geo c -> repr c h bl -> is_size n -> allocate c h n = Ok (h', r) -> r <> 0 ->
  let w := needed n in let a := r - 16 in
  adjust n = w /\ heap_block_size_is_valid w = true /\ 24 <= w /\ w mod 8 = 0 /\ w <= h_free h /\
  area_start c <= a /\ a mod 8 = 0 /\ a + w <= area_end c /\
  (exists x, 24 <= x < 2 ^ 63 /\ rd (h_mem h') (a + 8) = x + 2 ^ 63) /\
  exists prev, hdr_ok c prev /\ 0 < prev < W64 /\ (prev + 16 <= a \/ area_end c + 16 <= prev) /\
    rd (h_mem h) prev = heap_protect_block_pointer a /\
    find_block (walk_fuel c) c (h_mem h) (c_xs c) (heap_protect_block_pointer (rd (h_mem h) (c_xs c))) w = Ok (prev, a).
Proof.
  intros G R N EA RN w a.
  pose proof (r_mem _ _ _ R) as RM. pose proof (r_tiles _ _ _ RM) as T.
  pose proof (free_sum_bound _ _ _ T) as FB. pose proof (r_free _ _ _ R) as RF.
  pose proof (allocate_spec c h bl n G R N) as AS.
  destruct (a_alloc bl n) as [[bl' a0]|] eqn:AA; [|rewrite EA in AS; injection AS as _ AS; contradiction].
  destruct AS as (h2 & l1 & s & l2 & EA' & R' & EB & EB' & WS & SM & _).
  rewrite EA in EA'. injection EA' as <- ->. assert (AE0 : a = a0) by (unfold a; lia). clearbody a. subst a.
  unfold a_alloc in AA. destruct (0 <? n) eqn:N0; cbn [andb] in AA; [|discriminate].
  destruct (needed n <? 2 ^ 63) eqn:N63; [|discriminate]. clear AA.
  pose proof (needed_bounds n ltac:(lia)) as NB. fold w in NB, WS, N63, SM, EB'.
  subst bl. pose proof (tiles_mid _ _ _ _ _ T) as (T1 & A16 & AM & T2). cbn [b_addr b_len] in *.
  pose proof (tiles_le _ _ _ T1) as L1. pose proof (tiles_le _ _ _ T2) as L2.
  pose proof (tiles_mod _ _ _ T1 (g_startmod c G)) as AMOD.
  pose proof (pred_facts c l1 _ l2 G T) as PF. cbn zeta in PF. cbn [b_addr] in PF.
  set (prev := last_addr (frees l1) (c_xs c)) in *. destruct PF as (PO & PA & PR & PS).
  pose proof (r_chain _ _ _ RM) as CH.
  assert (BIG : forall b, In b (l1 ++ Blk a0 s false :: l2) -> 0 <= b_len b).
  { intros b I. pose proof (tiles_in _ _ _ _ T (g_startmod c G) I). lia. }
  split; [rewrite adjust_spec by exact N; rewrite N0; fold w; replace (w <? W64) with true by (rewrite W64_val; lia); reflexivity|].
  split; [unfold heap_block_size_is_valid; rewrite bit_val, small_land_top by lia; reflexivity|].
  split; [lia|]. split; [lia|].
  split; [rewrite RF; pose proof (free_sum_in _ a0 s BIG ltac:(apply in_elt)); lia|].
  split; [lia|]. split; [lia|]. split; [lia|].
  split.
  { pose proof (r_mem _ _ _ R') as RM'. unfold taken in EB'.
    destruct (32 <? s - w); subst bl'.
    - destruct (r_used _ _ _ RM' (Blk a0 w true) ltac:(apply in_elt) eq_refl) as [_ US]. cbn [b_addr b_len] in US. exists w. split; [lia|exact US].
    - destruct (r_used _ _ _ RM' (Blk a0 s true) ltac:(apply in_elt) eq_refl) as [_ US]. cbn [b_addr b_len] in US. exists s.
      split; [geo_facts G; lia|exact US]. }
  exists prev. split; [exact PO|]. split; [exact PR|]. split; [lia|].
  split.
  { rewrite frees_app in CH. cbn [frees b_used b_addr b_len] in CH. apply chain_app in CH. fold prev in CH. cbn [chain] in CH. exact (proj1 (proj2 CH)). }
  assert (E0 : area_end c <> 0) by (geo_facts G; lia).
  rewrite (chain_next _ _ _ _ CH), prot_prot.
  rewrite (find_block_spec c (h_mem h) w (area_end c) G (hdr_ok_end c G) E0
             (r_endnext _ _ _ RM) (r_endsize _ _ _ RM) ltac:(lia) _ (walk_fuel c) (c_xs c) CH).
  - replace (ff w (c_xs c) (frees (l1 ++ Blk a0 s false :: l2))) with (Some (prev, a0)); [reflexivity|].
    rewrite frees_app. cbn [frees b_used b_addr b_len]. symmetry. unfold prev. clear -SM WS.
    generalize (c_xs c). induction (frees l1) as [|[b t] f IH]; intros q; cbn [ff app last_addr].
    + replace (s <? w) with false by lia. reflexivity.
    + pose proof (SM b t (or_introl eq_refl)). replace (t <? w) with true by lia. apply IH. intros x y I. apply (SM x y). right; exact I.
  - intros q Q. pose proof (frees_addrs_range _ _ _ _ T (g_startmod c G) Q).
    geo_facts G. split; [split; [lia|left; lia]|lia].
  - pose proof (frees_len _ _ _ T). unfold walk_fuel. geo_facts G. lia.
Qed.

(** The walk and the reading of pv_return, nothing written yet. *)
Lemma alloc_stall c h bl n h' r k :
  geo c -> repr c h bl -> is_size n -> allocate c h n = Ok (h', r) -> r <> 0 ->
  exists prev, hdr_ok c prev /\ (prev + 16 <= r - 16 \/ area_end c + 16 <= prev) /\
    goes c h (alloc_code (walk_fuel c) (c_xs c) n k) [] h
      (take_code prev (r - 16) (needed n) (Cb (fun cb => if (r =? 0) && cb then Fire (k r) else k r))).
Proof.
  intros G R N EA RN.
  destruct (walk_facts c h bl n h' r G R N EA RN) as (AJ & VA & W24 & WM & WF & A0 & AM & AE & _ & prev & PO & PR & PA & PN & FB).
  exists prev. split; [exact PO|]. split; [exact PA|].
  unfold alloc_code. rewrite AJ, VA. replace (0 <? needed n) with true by lia.
  apply goes_get. cbn [get]. replace (needed n <=? h_free h) with true by lia.
  assert (XO := hdr_ok_xs c G).
  eapply goes_rd; [exact (ld_next_ok c (h_mem h) (c_xs c) G XO)|]. cbv beta.
  eapply goes_trans0; [apply find_goes, FB|]. cbv beta. apply goes_end.
  rewrite (r_end _ _ _ R). replace (r - 16 =? area_end c) with false by lia. cbn [negb].
  eapply goes_rd; [exact (ld_next_ok c (h_mem h) prev G PO)|]. cbv beta.
  rewrite PN, prot_prot, hss_val. replace (r - 16 + 16) with r by lia.
  rewrite u64_id by (geo_facts G; lia). apply goes_here.
Qed.

(** Going on with a block somebody else has taken meanwhile. *)
Lemma stale_goes c h prev a w k x :
  geo c -> hdr_ok c prev -> (prev + 16 <= a \/ area_end c + 16 <= prev) ->
  area_start c <= a -> a mod 8 = 0 -> a + w <= area_end c -> 24 <= w -> w mod 8 = 0 ->
  24 <= x < 2 ^ 63 -> rd (h_mem h) (a + 8) = x + 2 ^ 63 ->
  exists h', goes c h (take_code prev a w k) [] h' k /\ h_free h' = u64 (h_free h - w) /\ h_cb h' = h_cb h.
Proof.
  intros G PO PA A0 AM AE W24 WM XR SZ.
  assert (AO : hdr_ok c a) by (geo_facts G; split; [lia|left; lia]).
  assert (NBO : hdr_ok c (a + w)) by (geo_facts G; split; [lia|left; lia]).
  assert (NBU : u64 (a + w) = a + w) by (apply u64_id; geo_facts G; lia).
  assert (WU : 0 <= w < W64) by (rewrite W64_val; geo_facts G; lia).
  destruct (hdr_ok_words c prev (g_xsmod c G) PO) as [P1 P2].
  destruct (hdr_ok_words c a (g_xsmod c G) AO) as [A1 A2].
  destruct (hdr_ok_words c (a + w) (g_xsmod c G) NBO) as [B1 B2].
  assert (SP : heap_minimum_block_size <? u64 (x + 2 ^ 63 - w) = true).
  { rewrite hmin_val, u64_id by (rewrite W64_val; geo_facts G; lia). geo_facts G. lia. }
  set (m := h_mem h) in *. set (m1 := wr m prev (rd m a)).
  assert (S1 : rd m1 (a + 8) = x + 2 ^ 63).
  { unfold m1. rewrite rd_wr_other by lia. exact SZ. }
  set (m2 := wr m1 (a + w + 8) (u64 (x + 2 ^ 63 - w))). set (m3 := wr m2 (a + 8) w).
  set (m4 := wr m3 (a + w) (rd m3 prev)). set (m5 := wr m4 prev (heap_protect_block_pointer (a + w))).
  assert (S5 : rd m5 (a + 8) = w).
  { unfold m5. rewrite rd_wr_other by lia. unfold m4. rewrite rd_wr_other by lia. unfold m3. apply rd_wr_same. exact WU. }
  pose (FIN := fun (hh : heap) => exists h', goes c hh
    (Rd (a + 8) (fun s1 => Get FFree (fun f => Put FFree (u64 (f - s1)) (
     Get FFree (fun f1 => Get FMin (fun mn =>
     let fin :=
      Rd (a + 8) (fun s2 => Wr (a + 8) (Z.lor s2 heap_block_allocated_bitmask) (
      Wr a (heap_protect_block_pointer 0) (
      Get FAllocs (fun n => Put FAllocs (u64 (n + 1)) k)))) in
     if f1 <? mn then Get FFree (fun f2 => Put FMin f2 fin) else fin)))))) [] h' k /\
    h_free h' = u64 (h_free h - w) /\ h_cb h' = h_cb h).
  assert (F : FIN (set_mem h m5)).
  { unfold FIN. set (hm := set_mem h m5).
    assert (TAIL : forall hh, h_mem hh = m5 -> exists h', goes c hh
      (Rd (a + 8) (fun s2 => Wr (a + 8) (Z.lor s2 heap_block_allocated_bitmask) (
       Wr a (heap_protect_block_pointer 0) (Get FAllocs (fun n => Put FAllocs (u64 (n + 1)) k))))) [] h' k /\
       h_free h' = h_free hh /\ h_cb h' = h_cb hh).
    { intros hh EM. eexists. split.
      - eapply goes_rd; [exact (load_ok c _ (a + 8) A2)|]. cbv beta.
        eapply goes_wr; [exact (store_ok c _ (a + 8) _ A2)|].
        eapply goes_wr; [exact (store_ok c _ a _ A1)|]. repeat go. apply goes_here.
      - split; reflexivity. }
    assert (RDS : load c (h_mem hm) (a + 8) = Ok w) by (change (h_mem hm) with m5; rewrite (load_ok c m5 (a + 8) A2), S5; reflexivity).
    set (h1 := put hm FFree (u64 (h_free h - w))).
    destruct (h_free h1 <? h_min h1) eqn:LT.
    - destruct (TAIL (put h1 FMin (h_free h1)) eq_refl) as (h' & GT & E1 & E2). exists h'. split; [|split; [exact E1|exact E2]].
      eapply goes_rd; [exact RDS|]. cbv beta. apply goes_get. apply goes_put.
      apply goes_get. apply goes_get. cbv zeta.
      match goal with |- goes _ _ (if ?b then _ else _) _ _ _ => change b with (h_free h1 <? h_min h1) end.
      rewrite LT. apply goes_get. apply goes_put. exact GT.
    - destruct (TAIL h1 eq_refl) as (h' & GT & E1 & E2). exists h'. split; [|split; [exact E1|exact E2]].
      eapply goes_rd; [exact RDS|]. cbv beta. apply goes_get. apply goes_put.
      apply goes_get. apply goes_get. cbv zeta.
      match goal with |- goes _ _ (if ?b then _ else _) _ _ _ => change b with (h_free h1 <? h_min h1) end.
      rewrite LT. exact GT. }
  destruct F as (h' & GF & E1 & E2). exists h'. split; [|split; [exact E1|exact E2]].
  unfold take_code.
  eapply goes_rd; [exact (load_ok c m a A1)|]. cbv beta.
  eapply goes_wr; [exact (store_ok c m prev _ P1)|]. fold m1.
  eapply goes_rd; [change (h_mem (set_mem h m1)) with m1; rewrite (load_ok c m1 (a + 8) A2), S1; reflexivity|]. cbv beta zeta.
  rewrite SP, NBU.
  eapply goes_rd; [change (h_mem (set_mem h m1)) with m1; rewrite (load_ok c m1 (a + 8) A2), S1; reflexivity|]. cbv beta.
  eapply goes_wr; [exact (store_ok c m1 (a + w + 8) _ B2)|]. fold m2.
  eapply goes_wr; [exact (store_ok c m2 (a + 8) _ A2)|]. fold m3.
  eapply goes_rd; [exact (load_ok c m3 prev P1)|]. cbv beta.
  eapply goes_wr; [exact (store_ok c m3 (a + w) _ B1)|]. fold m4.
  eapply goes_wr; [exact (store_ok c m4 prev _ P1)|]. fold m5. exact GF.
Qed.
