(** Two threads that free: one block is lost.  Data races. *)
From Verif Require Export HeapShareProofs2.

Lemma no_frees bl e : forall s, tiles s bl e -> free_sum bl = 0 -> frees bl = [].
Proof.
  induction bl as [|b bl IH]; intros s T F; [reflexivity|]. cbn [tiles free_sum frees] in *. destruct T as (A & B & C & T).
  pose proof (free_sum_bound _ _ _ T). destruct (b_used b); [apply (IH _ T); lia|lia].
Qed.

(** Freeing into an empty free list, up to the last write but one. *)
Lemma free_stall c h a s k :
  geo c -> h_end h = area_end c ->
  area_start c <= a -> a mod 8 = 0 -> 16 <= s -> a + s <= area_end c ->
  rd (h_mem h) (c_xs c) = heap_protect_block_pointer (area_end c) -> rd (h_mem h) (c_xs c + 8) = 0 ->
  rd (h_mem h) a = heap_protect_block_pointer 0 -> rd (h_mem h) (a + 8) = s + 2 ^ 63 ->
  exists m, goes c h (free_code (walk_fuel c) (c_xs c) (a + 16) k) []
      (put (set_mem h m) FFree (u64 (h_free h + s)))
      (Wr (c_xs c) (heap_protect_block_pointer a) (Get FFrees (fun n => Put FFrees (u64 (n + 1)) k))) /\
    rd m (a + 8) = s /\ rd m a = heap_protect_block_pointer (area_end c) /\
    (forall x, ~ (a <= x < a + 16) -> m x = h_mem h x).
Proof.
  intros G HE A0 AM S16 AE RX RX8 RA RA8.
  assert (AO : hdr_ok c a) by (geo_facts G; split; [lia|left; lia]).
  destruct (hdr_ok_words c a (g_xsmod c G) AO) as [A1 A2].
  destruct (hdr_ok_words c (c_xs c) (g_xsmod c G) (hdr_ok_xs c G)) as [X1 X2].
  assert (S63 : 0 <= s < 2 ^ 63) by (geo_facts G; lia).
  assert (FAR : a + 16 <= c_xs c \/ c_xs c + 16 <= a) by (geo_facts G; lia).
  set (m0 := h_mem h) in *. set (m1 := wr m0 (a + 8) s).
  assert (PE : 0 <= heap_protect_block_pointer (area_end c) < W64) by (apply prot_range; geo_facts G; rewrite W64_val in *; lia).
  set (m2 := wr m1 a (heap_protect_block_pointer (area_end c))).
  assert (R1 : rd m1 (a + 8) = s) by (unfold m1; apply rd_wr_same; rewrite W64_val; lia).
  assert (R1X : rd m1 (c_xs c) = heap_protect_block_pointer (area_end c)) by (unfold m1; rewrite rd_wr_other by lia; exact RX).
  assert (R1X8 : rd m1 (c_xs c + 8) = 0) by (unfold m1; rewrite rd_wr_other by lia; exact RX8).
  exists m2. split; [|split; [|split]].
  - unfold free_code. replace (a + 16 =? 0) with false by (geo_facts G; lia).
    rewrite hss_val, u64_id by (geo_facts G; lia). replace (a + 16 - 16) with a by lia.
    eapply goes_rd; [fold m0; rewrite (load_ok c m0 (a + 8) A2), RA8; reflexivity|]. cbv beta.
    assert (BIT : Z.land (s + 2 ^ 63) heap_block_allocated_bitmask =? 0 = false).
    { rewrite bit_val. destruct (Z.land (s + 2 ^ 63) (2 ^ 63) =? 0) eqn:E; [|reflexivity].
      exfalso. apply Z.eqb_eq in E. apply land_top_iff in E; rewrite ?W64_val; lia. }
    rewrite BIT. cbn [negb].
    eapply goes_rd; [fold m0; rewrite (load_ok c m0 a A1), RA; reflexivity|]. cbv beta. rewrite Z.eqb_refl.
    eapply goes_rd; [fold m0; rewrite (load_ok c m0 (a + 8) A2), RA8; reflexivity|]. cbv beta.
    rewrite nbit_val, land_nottop by exact S63.
    eapply goes_wr; [exact (store_ok c m0 (a + 8) s A2)|]. fold m1.
    eapply goes_rd; [change (h_mem (set_mem h m1)) with m1; rewrite (load_ok c m1 (a + 8) A2), R1; reflexivity|]. cbv beta.
    apply goes_get. apply goes_put. cbn [get set_mem h_free].
    set (h1 := put (set_mem h m1) FFree (u64 (h_free h + s))).
    assert (HM : h_mem h1 = m1) by reflexivity.
    unfold insert_code. unfold walk_fuel. cbn [pos_code].
    eapply goes_rd; [rewrite HM, (load_ok c m1 (c_xs c) X1), R1X; reflexivity|]. cbv beta. rewrite prot_prot.
    replace (area_end c <? a) with false by lia.
    eapply goes_rd; [rewrite HM, (load_ok c m1 (c_xs c + 8) X2), R1X8; reflexivity|]. cbv beta zeta.
    rewrite u64_id by (geo_facts G; lia). replace (c_xs c + 0 =? a) with false by (geo_facts G; lia).
    eapply goes_rd; [rewrite HM, (load_ok c m1 (a + 8) A2), R1; reflexivity|]. cbv beta.
    eapply goes_rd; [rewrite HM, (load_ok c m1 (c_xs c) X1), R1X; reflexivity|]. cbv beta.
    rewrite prot_prot, u64_id by (geo_facts G; lia). replace (c_xs c =? a) with false by lia. cbn [negb].
    destruct (a + s =? area_end c).
    + eapply goes_rd; [rewrite HM, (load_ok c m1 (c_xs c) X1), R1X; reflexivity|]. cbv beta.
      apply goes_end. change (h_end h1) with (h_end h). rewrite HE, prot_prot, Z.eqb_refl. cbn [negb].
      apply goes_end. change (h_end h1) with (h_end h). rewrite HE.
      eapply goes_wr; [rewrite HM; exact (store_ok c m1 a _ A1)|]. fold m2. apply goes_here.
    + eapply goes_rd; [rewrite HM, (load_ok c m1 (c_xs c) X1), R1X; reflexivity|]. cbv beta.
      eapply goes_wr; [rewrite HM; exact (store_ok c m1 a _ A1)|]. fold m2. apply goes_here.
  - unfold m2. rewrite rd_wr_other by lia. exact R1.
  - unfold m2. apply rd_wr_same. exact PE.
  - intros x NX. unfold m2, m1. rewrite wr_out by lia. apply wr_out. lia.
Qed.

Lemma goes_put_free c h d o h' d' : goes c h d o h' d' -> h_free h' <> h_free h ->
  exists o1 h1 v k, goes c h d o1 h1 (Put FFree v k).
Proof.
  induction 1 as [h d|h d h1 d1 o os h2 d2 E G IH]; intros N; [congruence|].
  destruct (Z.eq_dec (h_free h1) (h_free h)) as [EQ|NE].
  - rewrite <- EQ in N. destruct (IH N) as (o1 & h3 & v & k & G1).
    exists (o ++ o1), h3, v, k. eapply goes_on; eassumption.
  - destruct d as [| |a k|a v k|f k|f v k|k|k|k|x r k]; cbn [tstep] in E; try discriminate E;
      try (injection E as <- <- <-; cbn in NE; congruence).
    + destruct (load c (h_mem h) a); cbn [bind] in E; try discriminate E. injection E as <- <- <-. congruence.
    + destruct (store c (h_mem h) a v); cbn [bind] in E; try discriminate E. injection E as <- <- <-. cbn in NE. congruence.
    + injection E as <- <- <-. destruct f; cbn in NE; try congruence. exists [], h, v, k. apply goes_here.
Qed.

(** Both frees, one inside the other. *)
Lemma lost_goes c h l b1 b2 k1 k2 :
  geo c -> reachable c h l -> h_free h = 0 -> In b1 l -> In b2 l -> hd_ptr b1 <> hd_ptr b2 ->
  exists hA dA hB hE,
    goes c h (free_code (walk_fuel c) (c_xs c) (hd_ptr b1) k1) [] hA dA /\
    goes c hA (free_code (walk_fuel c) (c_xs c) (hd_ptr b2) k2) [] hB k2 /\
    goes c hB dA [] hE k1 /\
    h_free hE = hd_fp b1 + hd_fp b2 /\
    forall n, is_size n -> hd_fp b1 < needed n -> exists h', allocate c hE n = Ok (h', 0).
Proof.
  intros G RC F0 I1 I2 ND. destruct (inv_reachable c h l G RC) as (bl & R & C).
  pose proof (r_mem _ _ _ R) as RM. pose proof (r_tiles _ _ _ RM) as T. pose proof (r_free _ _ _ R) as RF.
  pose proof (corr_in _ _ _ C I1) as J1. pose proof (corr_in _ _ _ C I2) as J2.
  pose proof (tiles_in _ _ _ _ T (g_startmod c G) J1) as K1. pose proof (tiles_in _ _ _ _ T (g_startmod c G) J2) as K2.
  destruct (r_used _ _ _ RM _ J1 eq_refl) as [U1 V1]. destruct (r_used _ _ _ RM _ J2 eq_refl) as [U2 V2].
  pose proof (tiles_sep _ _ _ _ _ T J1 J2) as SEP.
  cbn [b_addr b_len] in *.
  set (a1 := hd_ptr b1 - 16) in *. set (a2 := hd_ptr b2 - 16) in *. set (s1 := hd_fp b1) in *. set (s2 := hd_fp b2) in *.
  assert (A12 : a1 + 16 <= a2 \/ a2 + 16 <= a1).
  { destruct SEP as [E|[E|E]]; [injection E as E _; exfalso; apply ND; lia|lia|lia]. }
  assert (NF : frees bl = []) by (apply (no_frees _ _ _ T); lia).
  pose proof (r_chain _ _ _ RM) as CH. rewrite NF in CH. cbn [chain] in CH.
  pose proof (r_xs _ _ _ RM) as X8. pose proof (r_end _ _ _ R) as HE.
  replace (hd_ptr b1) with (a1 + 16) by (unfold a1; lia). replace (hd_ptr b2) with (a2 + 16) by (unfold a2; lia).
  destruct (free_stall c h a1 s1 k1 G HE ltac:(lia) ltac:(lia) ltac:(lia) ltac:(lia) CH X8 U1 V1) as (m1 & G1 & S1 & N1 & O1).
  set (hA := put (set_mem h m1) FFree (u64 (h_free h + s1))) in *.
  assert (KEEP : forall a, a + 8 <= a1 \/ a1 + 16 <= a -> rd m1 a = rd (h_mem h) a).
  { intros a H. apply rd_ext. intros x X. apply O1. lia. }
  assert (FAR1 : a1 + 16 <= c_xs c \/ c_xs c + 16 <= a1) by (geo_facts G; lia).
  assert (FAR2 : a2 + 16 <= c_xs c \/ c_xs c + 16 <= a2) by (geo_facts G; lia).
  destruct (free_stall c hA a2 s2 k2 G HE ltac:(lia) ltac:(lia) ltac:(lia) ltac:(lia)) as (m2 & G2 & S2 & N2 & O2).
  { change (h_mem hA) with m1. rewrite KEEP by lia. exact CH. }
  { change (h_mem hA) with m1. rewrite KEEP by lia. exact X8. }
  { change (h_mem hA) with m1. rewrite KEEP by lia. exact U2. }
  { change (h_mem hA) with m1. rewrite KEEP by lia. exact V2. }
  change (h_mem hA) with m1 in O2.
  destruct (hdr_ok_words c (c_xs c) (g_xsmod c G) (hdr_ok_xs c G)) as [X1 _].
  set (hA2 := put (set_mem hA m2) FFree (u64 (h_free hA + s2))) in *.
  set (m3 := wr m2 (c_xs c) (heap_protect_block_pointer a2)).
  set (hB := put (set_mem hA2 m3) FFrees (u64 (h_frees hA2 + 1))).
  set (m4 := wr m3 (c_xs c) (heap_protect_block_pointer a1)).
  set (hE := put (set_mem hB m4) FFrees (u64 (h_frees hB + 1))).
  exists hA, (Wr (c_xs c) (heap_protect_block_pointer a1) (Get FFrees (fun n => Put FFrees (u64 (n + 1)) k1))), hB, hE.
  split; [exact G1|]. split.
  { eapply goes_trans0; [exact G2|]. eapply goes_wr; [exact (store_ok c m2 (c_xs c) _ X1)|]. fold m3.
    apply goes_get. apply goes_put. apply goes_here. }
  split.
  { eapply goes_wr; [exact (store_ok c m3 (c_xs c) _ X1)|]. fold m4. apply goes_get. apply goes_put. apply goes_here. }
  assert (FE : h_free hE = s1 + s2).
  { change (h_free hE) with (u64 (u64 (h_free h + s1) + s2)). rewrite F0. rewrite !u64_id; geo_facts G; rewrite ?W64_val; try lia.
    rewrite u64_id; rewrite ?W64_val; lia. }
  split; [exact FE|].
  intros n NS NB.
  assert (M4X : rd m4 (c_xs c) = heap_protect_block_pointer a1).
  { unfold m4. apply rd_wr_same. apply prot_range. geo_facts G. rewrite W64_val in *. lia. }
  assert (KE : forall a, (a + 8 <= c_xs c \/ c_xs c + 8 <= a) -> (a + 8 <= a2 \/ a2 + 16 <= a) -> rd m4 a = rd m1 a).
  { intros a H1 H2. unfold m4, m3. rewrite rd_wr_other by lia. rewrite rd_wr_other by lia. apply rd_ext. intros x X. apply O2. lia. }
  assert (EN : rd m4 (area_end c) = heap_protect_block_pointer 0).
  { rewrite KE by (geo_facts G; lia). rewrite KEEP by lia. apply RM. }
  assert (ES : rd m4 (area_end c + 8) = 0).
  { rewrite KE by (geo_facts G; lia). rewrite KEEP by lia. apply RM. }
  assert (CH4 : chain m4 (c_xs c) [(a1, s1)] (area_end c)).
  { cbn [chain]. split; [exact M4X|]. rewrite !KE by lia. split; assumption. }
  destruct (Z_lt_ge_dec 0 n) as [NP|NP].
  2:{ replace n with 0 in NB by (unfold is_size in NS; lia). exfalso. change (needed 0) with 16 in NB. lia. }
  pose proof (needed_bounds n NP) as WB. set (w := needed n) in *.
  assert (CORE : allocate_core c hE (adjust n) = Ok (hE, 0)).
  { rewrite adjust_spec by exact NS. replace (0 <? n) with true by lia. fold w. cbn [andb].
    destruct (w <? W64); [|reflexivity].
    unfold allocate_core. destruct (heap_block_size_is_valid w); [|reflexivity].
    destruct ((0 <? w) && (w <=? h_free hE)); [|reflexivity].
    rewrite (ld_next_ok c _ (c_xs c) G (hdr_ok_xs c G)). cbn [bind]. change (h_mem hE) with m4.
    rewrite (chain_next _ _ _ _ CH4), prot_prot.
    rewrite (find_block_spec c m4 w (area_end c) G (hdr_ok_end c G) ltac:(geo_facts G; lia) EN ES ltac:(lia) _ (walk_fuel c) (c_xs c) CH4).
    - cbn [ff]. replace (s1 <? w) with true by lia. cbn [bind].
      change (h_end hE) with (h_end h). rewrite HE, Z.eqb_refl. reflexivity.
    - intros q [<-|[]]. geo_facts G. split; [split; [cbn; lia|left; cbn; lia]|cbn; lia].
    - unfold walk_fuel. cbn. lia. }
  unfold allocate. rewrite CORE. cbn [bind]. destruct ((0 =? 0) && h_cb hE); eauto.
Qed.
