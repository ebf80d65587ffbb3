(** What the held blocks alone determine, and fragmentation. *)
From Verif Require Export HeapProofs7.
From Coq Require Import Sorted Permutation.

(** ** the held blocks determine the block list *)
Lemma useds_above bl : forall s e x, tiles s bl e -> In x (useds bl) -> s <= fst x.
Proof.
  induction bl as [|b bl IH]; intros s e x T I; [destruct I|]. cbn in T. destruct T as (A & B & _ & T).
  cbn [useds] in I. destruct (b_used b); [destruct I as [<-|I]; cbn; [lia|]|]; specialize (IH _ _ _ T I); lia.
Qed.
Lemma useds_same bl1 : forall bl2 s e, tiles s bl1 e -> tiles s bl2 e -> no_adj bl1 -> no_adj bl2 ->
  Permutation (useds bl1) (useds bl2) -> bl1 = bl2.
Proof.
  induction bl1 as [|b1 bl1 IH]; intros bl2 s e T1 T2 N1 N2 P.
  - destruct bl2 as [|b2 bl2]; [reflexivity|]. cbn in T1, T2. destruct T2 as (_ & B & _ & T2). apply tiles_le in T2. lia.
  - destruct bl2 as [|b2 bl2]; [cbn in T1, T2; destruct T1 as (_ & B & _ & T1); apply tiles_le in T1; lia|].
    destruct b1 as [a1 n1 u1], b2 as [a2 n2 u2].
    cbn [tiles b_addr b_len] in T1, T2. destruct T1 as (-> & B1 & M1 & T1), T2 as (-> & B2 & M2 & T2).
    assert (NT1 : no_adj bl1) by (destruct bl1; [exact Logic.I|apply N1]).
    assert (NT2 : no_adj bl2) by (destruct bl2; [exact Logic.I|apply N2]).
    destruct u1, u2; cbn [useds b_used b_addr b_len] in P.
    + assert (E : n1 = n2).
      { assert (I : In (s, n1) ((s, n2) :: useds bl2)) by (apply (Permutation_in _ P); left; reflexivity).
        destruct I as [I|I]; [congruence|]. apply (useds_above _ _ _ _ T2) in I. cbn in I. lia. }
      subst n2. apply Permutation_cons_inv in P. f_equal. eapply IH; eassumption.
    + exfalso. assert (I : In (s, n1) (useds bl2)) by (apply (Permutation_in _ P); left; reflexivity).
      apply (useds_above _ _ _ _ T2) in I. cbn in I. lia.
    + exfalso. apply Permutation_sym in P. assert (I : In (s, n2) (useds bl1)) by (apply (Permutation_in _ P); left; reflexivity).
      apply (useds_above _ _ _ _ T1) in I. cbn in I. lia.
    + assert (NX : forall (bl bl' : list blk) n n', tiles (s + n) bl e -> tiles (s + n') bl' e -> no_adj (Blk s n false :: bl) ->
                Permutation (useds bl) (useds bl') -> n' <= n).
      { intros bl bl' n n' Ta Tb Na Pa. destruct bl as [|[a m u] bl].
        - cbn in Ta. apply tiles_le in Tb. lia.
        - destruct Na as [Na _]. cbn in Na. subst u. cbn in Ta. destruct Ta as (-> & _).
          assert (I : In (s + n, m) (useds bl')) by (apply (Permutation_in _ Pa); left; reflexivity).
          apply (useds_above _ _ _ _ Tb) in I. cbn in I. lia. }
      pose proof (NX _ _ _ _ T1 T2 N1 P). pose proof (NX _ _ _ _ T2 T1 N2 (Permutation_sym P)).
      assert (n1 = n2) by lia. subst n2. f_equal. eapply IH; eassumption.
Qed.
Lemma frees_useds bl : no_adj bl -> (length (frees bl) <= S (length (useds bl)))%nat.
Proof.
  assert (X : forall bl, no_adj bl -> (length (frees bl) <= length (useds bl) + match bl with b :: _ => if b_used b then 0 else 1 | [] => 0 end)%nat).
  { clear bl. induction bl as [|b bl IH]; intros N; [cbn; lia|]. cbn [frees useds].
    assert (N2 : no_adj bl) by (destruct bl; [exact Logic.I|apply N]). specialize (IH N2).
    destruct (b_used b) eqn:U; cbn [length].
    - destruct bl as [|b2 bl]; [lia|]. destruct (b_used b2); lia.
    - destruct bl as [|b2 bl]; [lia|]. destruct N as [N _]. rewrite U in N. cbn in N. rewrite N in IH. lia. }
  intros N. specialize (X bl N). destruct bl as [|b bl]; [lia|]. destruct (b_used b); lia.
Qed.
Lemma frees_small w bl : (forall a s, In (a, s) (frees bl) -> s <= w) -> free_sum bl <= w * Z.of_nat (length (frees bl)).
Proof.
  induction bl as [|b bl IH]; intros H; [cbn; lia|]. cbn [frees free_sum] in *. destruct (b_used b).
  - specialize (IH H). lia.
  - specialize (IH (fun a s I => H a s (or_intror I))). specialize (H _ _ (or_introl eq_refl)). cbn [length]. lia.
Qed.

Section Frag.
  Variable c : cfg.
  Hypothesis PL : placed c.
  Hypothesis RM : roomy c.
  Notation G := (placed_geo c PL RM).

  Lemma same_blocks h1 h2 l1 l2 : reachable c h1 l1 -> reachable c h2 l2 -> Permutation l1 l2 -> twin c h1 h2 l1.
  Proof.
    intros R1 R2 P. apply (inv_reachable _ _ _ G) in R1. apply (inv_reachable _ _ _ G) in R2.
    destruct R1 as (bl1 & R1 & C1), R2 as (bl2 & R2 & C2).
    assert (E : bl1 = bl2).
    { apply (useds_same bl1 bl2 (area_start c) (area_end c));
        [apply (r_tiles _ _ _ (r_mem _ _ _ R1))|apply (r_tiles _ _ _ (r_mem _ _ _ R2))|
         apply (r_noadj _ _ _ (r_mem _ _ _ R1))|apply (r_noadj _ _ _ (r_mem _ _ _ R2))|].
      eapply Permutation_trans; [apply (co_perm _ _ C1)|]. eapply Permutation_trans; [apply (Permutation_map _ P)|].
      apply Permutation_sym, (co_perm _ _ C2). }
    subst bl2. exists bl1. auto.
  Qed.
  Lemma history h1 h2 l1 l2 : reachable c h1 l1 -> reachable c h2 l2 -> Permutation l1 l2 ->
    free_heap_size h1 = free_heap_size h2 /\
    forall evs l', (exists h', session c h1 l1 evs h' l') <-> (exists h', session c h2 l1 evs h' l').
  Proof.
    intros R1 R2 P. pose proof (same_blocks h1 h2 l1 l2 R1 R2 P) as TW. split.
    - destruct TW as (bl & A & B & _). unfold free_heap_size. rewrite (r_free _ _ _ A), (r_free _ _ _ B). reflexivity.
    - intros evs l'. split; intros (h' & S).
      + destruct (twin_session c PL RM _ _ _ _ _ S _ TW) as (h3 & S' & _). exists h3. exact S'.
      + destruct (twin_session c PL RM _ _ _ _ _ S _ (twin_sym c _ _ _ TW)) as (h3 & S' & _). exists h3. exact S'.
  Qed.
  Lemma back_again h l n h1 r h2 : reachable c h l -> is_size n -> allocate c h n = Ok (h1, r) -> r <> 0 -> deallocate c h1 r = Ok h2 ->
    reachable c h2 l.
  Proof.
    intros R N A NZ D. set (b := Held r n (free_heap_size h - free_heap_size h1)).
    assert (R1 : reachable c h1 (b :: l)).
    { pose proof (reachable_step c h l (Alloc n) h1 r R N A) as X. cbn [hold] in X. destruct (Z.eqb_spec r 0); [contradiction|]. exact X. }
    assert (X : reachable c h2 (hold (b :: l) (Free r) 0 (free_heap_size h1) (free_heap_size h2))).
    { apply (reachable_step c h1 (b :: l) (Free r) h2 0 R1).
      - right. exists b. split; [left; reflexivity|reflexivity].
      - cbn [apply]. rewrite D. reflexivity. }
    cbn [hold filter b hd_ptr] in X. rewrite Z.eqb_refl in X. cbn [negb] in X.
    rewrite filter_id in X; [exact X|]. intros x I.
    pose proof (inv_nodup c PL RM h1 _ (inv_reachable c _ _ G R1)) as ND. cbn [map b hd_ptr] in ND. inversion ND as [|y k NI _]; subst.
    destruct (Z.eqb_spec (hd_ptr x) r) as [E|]; [|reflexivity]. exfalso. apply NI. rewrite <- E. apply in_map, I.
  Qed.

  (** ** what fits *)
  Lemma fewer_blocks h1 h2 l1 l2 n m h1' h2' r1 r2 : reachable c h1 l1 -> reachable c h2 l2 ->
    (forall b, In b l2 -> In b l1) -> is_size n -> 0 < m <= n ->
    allocate c h1 n = Ok (h1', r1) -> allocate c h2 m = Ok (h2', r2) -> r1 <> 0 -> r2 <> 0 /\ r2 <= r1.
  Proof.
    intros R1 R2 SUB N MN A1 A2 NZ.
    destruct (first_fit c PL RM h1 l1 n h1' r1 R1 N A1) as [F1 F1b]. destruct (F1b NZ) as [W1 _].
    apply F1 in NZ. destruct NZ as (NP & NW & _).
    assert (M : is_size m) by (unfold is_size in *; lia).
    destruct (first_fit c PL RM h2 l2 m h2' r2 R2 M A2) as [F2 F2b].
    assert (NM : needed m <= needed n) by (unfold needed; lia).
    assert (W2 : free_window c l2 (r1 - 16) m).
    { destruct W1 as (L & U & D). split; [exact L|]. split; [lia|]. intros b B. specialize (D b (SUB b B)). unfold disjoint in *. lia. }
    assert (NZ2 : r2 <> 0) by (apply F2; split; [lia|]; split; [lia|]; exists (r1 - 16); exact W2).
    split; [exact NZ2|]. destruct (F2b NZ2) as [_ MI]. specialize (MI _ W2). lia.
  Qed.
  Lemma free_one h l b h1 n h' r h1' r1 : reachable c h l -> In b l -> deallocate c h (hd_ptr b) = Ok h1 -> is_size n ->
    allocate c h n = Ok (h', r) -> allocate c h1 n = Ok (h1', r1) -> r <> 0 -> r1 <> 0 /\ r1 <= r.
  Proof.
    intros R B D N A A1 NZ.
    assert (X : reachable c h1 (hold l (Free (hd_ptr b)) 0 (free_heap_size h) (free_heap_size h1))).
    { apply (reachable_step c h l (Free (hd_ptr b)) h1 0 R).
      - right. exists b. auto.
      - cbn [apply]. rewrite D. reflexivity. }
    assert (NP : 0 < n) by (destruct (first_fit c PL RM h l n h' r R N A) as [F _]; apply F, NZ).
    refine (fewer_blocks h h1 l _ n n h' h1' r r1 R X _ N _ A A1 NZ); [|lia].
    intros x I. cbn [hold] in I. apply filter_In in I. apply I.
  Qed.
  Lemma enough_free h l n h' r : reachable c h l -> is_size n -> 0 < n -> allocate c h n = Ok (h', r) ->
    (needed n - 8) * (Z.of_nat (length l) + 1) < free_heap_size h -> r <> 0.
  Proof.
    intros R N NP A E. apply (first_fit c PL RM h l n h' r R N A).
    pose proof R as R0. apply (inv_reachable _ _ _ G) in R. destruct R as (bl & R & C).
    pose proof (r_tiles _ _ _ (r_mem _ _ _ R)) as T. pose proof (r_noadj _ _ _ (r_mem _ _ _ R)) as NA.
    assert (LU : length (useds bl) = length l).
    { rewrite (Permutation_length (co_perm _ _ C)), map_length. reflexivity. }
    pose proof (frees_useds bl NA) as LF. rewrite LU in LF.
    assert (NN : 24 <= needed n) by (unfold needed; lia).
    assert (NM : needed n mod 8 = 0) by (unfold needed; lia).
    unfold free_heap_size in E. rewrite (r_free _ _ _ R) in E.
    assert (X : exists a s, In (a, s) (frees bl) /\ needed n <= s).
    { destruct (existsb (fun x => needed n <=? snd x) (frees bl)) eqn:EX.
      - apply existsb_exists in EX. destruct EX as ([a s] & I & L). exists a, s. split; [exact I|]. cbn in L. lia.
      - exfalso. assert (SM : forall a s, In (a, s) (frees bl) -> s <= needed n - 8).
        { intros a s I. assert (s < needed n).
          { destruct (Z.ltb_spec s (needed n)) as [L|L]; [exact L|]. exfalso.
            assert (Y : existsb (fun x => needed n <=? snd x) (frees bl) = true).
            { apply existsb_exists. exists (a, s). split; [exact I|]. cbn. lia. }
            congruence. }
          assert (IB : In (Blk a s false) bl).
          { clear -I. induction bl as [|[x y u] bl IH]; [destruct I|]. cbn in I. destruct u; [right; apply IH, I|]. destruct I as [I|I]; [left; congruence|right; apply IH, I]. }
          pose proof (tiles_in _ _ _ _ T (g_startmod c G) IB) as IR. cbn in IR. lia. }
        pose proof (frees_small (needed n - 8) bl SM) as FS.
        assert ((needed n - 8) * Z.of_nat (length (frees bl)) <= (needed n - 8) * (Z.of_nat (length l) + 1)) by (apply Z.mul_le_mono_nonneg_l; lia).
        lia. }
    destruct X as (a & s & I & L).
    assert (IB : In (Blk a s false) bl).
    { clear -I. induction bl as [|[x y u] bl IH]; [destruct I|]. cbn in I. destruct u; [right; apply IH, I|]. destruct I as [I|I]; [left; congruence|right; apply IH, I]. }
    pose proof (tiles_in _ _ _ _ T (g_startmod c G) IB) as IR. cbn in IR.
    pose proof (placed_geo c PL RM) as GG. geo_facts GG.
    split; [exact NP|]. split; [lia|]. exists a.
    apply (free_is_window c PL RM bl l a s n); auto.
  Qed.
End Frag.

(** ** a fragmented heap *)
Section Comb.
  Variable c : cfg.
  Hypothesis PL : placed c.
  Hypothesis RM : roomy c.
  Notation G := (placed_geo c PL RM).
  Variable m : Z.
  Hypothesis MS : is_size m.
  Hypothesis MP : 0 < m.
  Notation s0 := (area_start c).
  Notation e0 := (area_end c).
  Notation w := (needed m).
  Lemma w_big : 24 <= w /\ w mod 8 = 0.
  Proof. unfold needed. lia. Qed.
  Lemma area_mod : (e0 - s0) mod 8 = 0 /\ 0 <= s0 /\ e0 < 2 ^ 64 /\ e0 - s0 < 2 ^ 63.
  Proof.
    pose proof (placed_geo c PL RM) as GG. geo_facts GG. pose proof (g_startmod c GG). pose proof (g_endmod c GG).
    pose proof (g_base c GG). pose proof (g_start c GG). pose proof (g_end c GG). pose proof (g_size c GG). pose proof (g_top c GG).
    change W64 with (2 ^ 64) in *. lia.
  Qed.
  Fixpoint row (i : nat) : list held :=
    match i with
    | O => []
    | S i => Held (s0 + w * Z.of_nat i + 16) m w :: row i
    end.
  Lemma in_row i b : In b (row i) <-> exists j, (j < i)%nat /\ b = Held (s0 + w * Z.of_nat j + 16) m w.
  Proof.
    induction i as [|i IH]; cbn [row In].
    - split; [intros []|intros (j & L & _); lia].
    - rewrite IH. split.
      + intros [<-|(j & L & ->)]; [exists i|exists j]; split; auto; lia.
      + intros (j & L & ->). destruct (Nat.eq_dec j i) as [->|NE]; [left; reflexivity|right; exists j; split; [lia|reflexivity]].
  Qed.
  Lemma row_windows i l a n : 0 < n -> (forall b, In b (row i) -> In b l) -> free_window c l a n -> s0 + w * Z.of_nat i <= a.
  Proof.
    intros NP SUB (L & U & D). destruct (Z.le_gt_cases (s0 + w * Z.of_nat i) a) as [|H]; [assumption|exfalso].
    pose proof w_big as [W1 W2].
    set (j := (a - s0) / w). assert (J1 : w * j <= a - s0 < w * j + w) by (unfold j; pose proof (Z.mul_div_le (a - s0) w); pose proof (Z.mul_succ_div_gt (a - s0) w); lia).
    assert (J0 : 0 <= j) by (unfold j; apply Z.div_pos; lia).
    assert (JI : j < Z.of_nat i) by (apply Z.mul_lt_mono_pos_l with (p := w); lia).
    assert (I : In (Held (s0 + w * j + 16) m w) l).
    { apply SUB, in_row. exists (Z.to_nat j). split; [lia|]. rewrite Z2Nat.id by lia. reflexivity. }
    specialize (D _ I). unfold disjoint, region_start in D. cbn in D. assert (0 < needed n) by (unfold needed; lia). lia.
  Qed.
  Lemma next_apply i h n : reachable c h (row i) -> is_size n -> 0 < n -> w * Z.of_nat i + needed n <= e0 - s0 ->
    exists h' r, apply c h (Alloc n) = Ok (h', r) /\ hold (row i) (Alloc n) r (free_heap_size h) (free_heap_size h') = (Held (s0 + w * Z.of_nat i + 16) n (if e0 - s0 - w * Z.of_nat i - needed n <=? 32 then e0 - s0 - w * Z.of_nat i else needed n) :: row i).
  Proof.
    intros R N NP FIT. pose proof area_mod as (_ & A0 & A1 & A2). pose proof w_big as [W1 W2].
    destruct (calls_defined c PL RM h (row i) (Alloc n) R N) as (h' & r & A).
    destruct (first_fit c PL RM h (row i) n h' r R N A) as [F1 F2].
    assert (W : free_window c (row i) (s0 + w * Z.of_nat i) n).
    { split; [lia|]. split; [lia|]. intros b B. apply in_row in B. destruct B as (j & L & ->). unfold disjoint, region_start. cbn.
      right. assert (w * Z.of_nat j + w <= w * Z.of_nat i) by (replace (w * Z.of_nat j + w) with (w * (Z.of_nat j + 1)) by ring; apply Z.mul_le_mono_nonneg_l; lia). lia. }
    assert (NW : needed n < W64) by (change W64 with (2 ^ 64); lia).
    assert (NZ : r <> 0) by (apply F1; split; [exact NP|]; split; [exact NW|]; eexists; exact W).
    destruct (F2 NZ) as [WR MR]. specialize (MR _ W). pose proof (row_windows i (row i) (r - 16) n NP (fun b B => B) WR) as LR.
    assert (ER : r = s0 + w * Z.of_nat i + 16) by lia.
    pose proof (footprint c PL RM h (row i) n h' r R N A NZ) as FP. cbv zeta in FP.
    replace (r - 16) with (s0 + w * Z.of_nat i) in FP by lia.
    assert (NN0 : 0 < needed n) by (unfold needed; lia).
    rewrite (ceiling_spec c (row i) (s0 + w * Z.of_nat i) e0) in FP; [|left; reflexivity|lia|lia|].
    - exists h', r. split; [exact A|]. cbn [hold]. destruct (Z.eqb_spec r 0); [contradiction|].
      rewrite FP, ER. replace (e0 - (s0 + w * Z.of_nat i)) with (e0 - s0 - w * Z.of_nat i) by lia. reflexivity.
    - intros b B L. exfalso. apply in_row in B. destruct B as (j & LJ & ->). unfold region_start in L. cbn in L.
      assert (w * Z.of_nat j + w <= w * Z.of_nat i) by (replace (w * Z.of_nat j + w) with (w * (Z.of_nat j + 1)) by ring; apply Z.mul_le_mono_nonneg_l; lia). lia.
  Qed.
  Lemma next_block i h n : reachable c h (row i) -> is_size n -> 0 < n -> w * Z.of_nat i + needed n <= e0 - s0 ->
    exists h', reachable c h' (Held (s0 + w * Z.of_nat i + 16) n (if e0 - s0 - w * Z.of_nat i - needed n <=? 32 then e0 - s0 - w * Z.of_nat i else needed n) :: row i).
  Proof.
    intros R N NP FIT. destruct (next_apply i h n R N NP FIT) as (h' & r & A & E). exists h'. rewrite <- E.
    exact (reachable_step c h (row i) (Alloc n) h' r R N A).
  Qed.
  Lemma row_reach i : w * Z.of_nat i + 40 <= e0 - s0 -> exists h, reachable c h (row i).
  Proof.
    pose proof w_big as [W1 W2].
    induction i as [|i IH]; intros L.
    - destruct (construct_spec c G (g_size c G)) as (mm & E & _). eexists. eexists. exists []. split; [exact E|constructor].
    - assert (LI : w * Z.of_nat i + w + 40 <= e0 - s0) by lia.
      destruct IH as (h & R); [lia|]. destruct (next_block i h m R MS MP) as (h' & R'); [lia|].
      exists h'. destruct (Z.leb_spec (e0 - s0 - w * Z.of_nat i - w) 32); [lia|]. exact R'.
  Qed.
  Lemma free_many (keep : Z -> bool) : forall k h l, (length (filter (fun b => negb (keep (hd_ptr b))) l) <= k)%nat -> reachable c h l ->
    exists h', reachable c h' (filter (fun b => keep (hd_ptr b)) l).
  Proof.
    induction k as [|k IH]; intros h l L R.
    - exists h. rewrite filter_id; [exact R|]. intros x I. destruct (keep (hd_ptr x)) eqn:E; [reflexivity|exfalso].
      assert (X : In x (filter (fun b => negb (keep (hd_ptr b))) l)) by (apply filter_In; rewrite E; auto).
      destruct (filter (fun b => negb (keep (hd_ptr b))) l); [destruct X|cbn in L; lia].
    - destruct (filter (fun b => negb (keep (hd_ptr b))) l) as [|x xs] eqn:EF.
      + apply (IH h l); [rewrite EF; cbn; lia|exact R].
      + assert (X : In x (filter (fun b => negb (keep (hd_ptr b))) l)) by (rewrite EF; left; reflexivity).
        apply filter_In in X. destruct X as [X KX]. destruct (keep (hd_ptr x)) eqn:EK; [discriminate|].
        assert (P : permitted l (Free (hd_ptr x))) by (right; exists x; auto).
        destruct (calls_defined c PL RM h l (Free (hd_ptr x)) R P) as (h1 & r & A).
        pose proof (reachable_step c h l (Free (hd_ptr x)) h1 r R P A) as R1. cbn [hold] in R1.
        set (l1 := filter (fun b => negb (hd_ptr b =? hd_ptr x)) l) in *.
        assert (SUB : forall (f : Z -> bool), (f (hd_ptr x) = false) -> filter (fun b => f (hd_ptr b)) l1 = filter (fun b => f (hd_ptr b)) l).
        { intros f FX. unfold l1. clear -FX. induction l as [|y l IH]; [reflexivity|]. cbn [filter].
          destruct (Z.eqb_spec (hd_ptr y) (hd_ptr x)) as [E|NE]; cbn [negb filter]; [rewrite E, FX; exact IH|]. rewrite IH. reflexivity. }
        destruct (IH h1 l1) as (h' & R'); [|exact R1|].
        * assert (LE : (length (filter (fun b => negb (keep (hd_ptr b))) l1) < length (filter (fun b => negb (keep (hd_ptr b))) l))%nat).
          { unfold l1. clear -X EK. induction l as [|y l IH]; [destruct X|]. cbn [filter].
            assert (MONO : forall k, (length (filter (fun b => negb (keep (hd_ptr b))) (filter (fun b => negb (hd_ptr b =? hd_ptr x)%Z) k)) <= length (filter (fun b => negb (keep (hd_ptr b))) k))%nat).
            { induction k as [|z k IHk]; [cbn; lia|]. cbn [filter]. destruct (negb (hd_ptr z =? hd_ptr x)); cbn [filter]; destruct (negb (keep (hd_ptr z))); cbn [length]; lia. }
            destruct (Z.eqb_spec (hd_ptr y) (hd_ptr x)) as [E|NE]; cbn [negb filter].
            - rewrite E, EK. cbn [negb length]. specialize (MONO l). lia.
            - destruct X as [->|X]; [congruence|]. specialize (IH X). destruct (negb (keep (hd_ptr y))); cbn [length]; lia. }
          rewrite EF in LE. cbn [length] in LE, L. lia.
        * exists h'. rewrite (SUB keep EK) in R'. exact R'.
  Qed.
  Lemma fragmented : w + 40 <= e0 - s0 ->
    exists h l, reachable c h l /\ e0 - s0 < 2 * free_heap_size h + w + 40 /\
      forall n h' r, is_size n -> w < needed n -> allocate c h n = Ok (h', r) -> r = 0.
  Proof.
    intros BIG. pose proof area_mod as (AM & A0 & A1 & A2). pose proof w_big as [W1 W2].
    set (q := (e0 - s0 - 40) / w).
    assert (Q0 : 0 <= q) by (apply Z.div_pos; lia).
    assert (Q1 : w * q <= e0 - s0 - 40 < w * q + w) by (unfold q; pose proof (Z.mul_div_le (e0 - s0 - 40) w); pose proof (Z.mul_succ_div_gt (e0 - s0 - 40) w); lia).
    set (i := Z.to_nat q). assert (QI : Z.of_nat i = q) by (apply Z2Nat.id; exact Q0).
    set (t := e0 - s0 - w * q).
    assert (TM : t mod 8 = 0).
    { unfold t. rewrite <- Zminus_mod_idemp_r, <- Z.mul_mod_idemp_l, W2 by lia. cbn. rewrite Z.sub_0_r. exact AM. }
    assert (NT : needed (t - 16) = t) by (unfold needed; lia).
    destruct (row_reach i) as (h1 & R1); [rewrite QI; lia|].
    destruct (next_block i h1 (t - 16) R1) as (h2 & R2); [unfold is_size; change W64 with (2 ^ 64); lia|lia|rewrite QI, NT; lia|].
    rewrite QI, NT in R2. fold t in R2. rewrite Z.sub_diag in R2. cbn [Z.leb Z.compare] in R2.
    set (tail := Held (s0 + w * q + 16) (t - 16) t) in *.
    set (keep := fun p => Z.odd ((p - 16 - s0) / w) || (p =? s0 + w * q + 16)).
    destruct (free_many keep _ h2 (tail :: row i) (le_n _) R2) as (h & R). set (l := filter (fun b => keep (hd_ptr b)) (tail :: row i)) in *.
    assert (IT : In tail l).
    { apply filter_In. split; [left; reflexivity|]. unfold keep, tail. cbn [hd_ptr]. rewrite Z.eqb_refl. apply orb_true_r. }
    assert (KJ : forall j, (j < i)%nat -> keep (s0 + w * Z.of_nat j + 16) = Z.odd (Z.of_nat j)).
    { intros j L. unfold keep. replace (s0 + w * Z.of_nat j + 16 - 16 - s0) with (Z.of_nat j * w) by lia. rewrite Z.div_mul by lia.
      assert (w * Z.of_nat j < w * q) by (apply Z.mul_lt_mono_pos_l; lia).
      destruct (Z.eqb_spec (s0 + w * Z.of_nat j + 16) (s0 + w * q + 16)); [lia|]. apply orb_false_r. }
    assert (IJ : forall j, 0 <= j < q -> Z.odd j = true -> In (Held (s0 + w * j + 16) m w) l).
    { intros j J O. apply filter_In. split.
      - right. apply in_row. exists (Z.to_nat j). rewrite Z2Nat.id by lia. split; [lia|reflexivity].
      - cbn [hd_ptr]. rewrite <- (Z2Nat.id j) by lia. rewrite KJ by lia. rewrite Z2Nat.id by lia. exact O. }
    assert (TF : total_footprint l = t + w * (q / 2)).
    { unfold l. cbn [filter]. assert (KT : keep (hd_ptr tail) = true) by (unfold keep, tail; cbn [hd_ptr]; rewrite Z.eqb_refl; apply orb_true_r).
      rewrite KT. unfold total_footprint. cbn [map fold_right tail hd_fp]. f_equal.
      assert (X : forall k, (k <= i)%nat -> fold_right Z.add 0 (map hd_fp (filter (fun b => keep (hd_ptr b)) (row k))) = w * (Z.of_nat k / 2)).
      { induction k as [|k IHk]; intros L; [cbn; lia|]. cbn [row filter]. cbn [hd_ptr]. rewrite KJ by lia.
        rewrite Nat2Z.inj_succ. specialize (IHk ltac:(lia)).
        pose proof (Zdiv2_odd_eqn (Z.of_nat k)) as DK. rewrite Z.div2_div in DK.
        destruct (Z.odd (Z.of_nat k)).
        - cbn [map fold_right hd_fp]. rewrite IHk. replace (Z.succ (Z.of_nat k) / 2) with (Z.of_nat k / 2 + 1) by lia. ring.
        - rewrite IHk. f_equal. lia. }
      rewrite (X i (le_n _)), QI. reflexivity. }
    destruct (construct_spec c G (g_size c G)) as (mm & EC & RC).
    destruct (accounting c PL RM h l _ R EC) as [ACC _]. unfold free_heap_size at 2 in ACC. cbn [h_free] in ACC.
    exists h, l. split; [exact R|]. split.
    - assert (2 * (w * (q / 2)) <= w * q).
      { replace (2 * (w * (q / 2))) with (w * (2 * (q / 2))) by ring. apply Z.mul_le_mono_nonneg_l; lia. }
      unfold t in *. lia.
    - intros n h' r N WN A. destruct (Z.eq_dec r 0) as [|NZ]; [assumption|exfalso].
      destruct (first_fit c PL RM h l n h' r R N A) as [F1 F2]. destruct (F2 NZ) as [(L & U & D) _].
      set (a := r - 16) in *. set (j := (a - s0) / w).
      assert (J1 : w * j <= a - s0 < w * j + w) by (unfold j; pose proof (Z.mul_div_le (a - s0) w); pose proof (Z.mul_succ_div_gt (a - s0) w); lia).
      assert (J0 : 0 <= j) by (unfold j; apply Z.div_pos; lia).
      pose proof (D _ IT) as DT. unfold disjoint, region_start, tail in DT. cbn in DT.
      destruct (Z.le_gt_cases q j) as [QJ|QJ].
      + assert (w * q <= w * j) by (apply Z.mul_le_mono_nonneg_l; lia). unfold t in *. lia.
      + assert (JQ : w * j + w <= w * q) by (replace (w * j + w) with (w * (j + 1)) by ring; apply Z.mul_le_mono_nonneg_l; lia).
        destruct (Z.odd j) eqn:OJ.
        * pose proof (D _ (IJ j (conj J0 QJ) OJ)) as DJ. unfold disjoint, region_start in DJ. cbn in DJ. lia.
        * destruct (Z.eq_dec (j + 1) q) as [E|NE].
          -- assert (w * j + w = w * q) by (rewrite <- E; ring). unfold t in *. lia.
          -- assert (OJ2 : Z.odd (j + 1) = true) by (rewrite Z.odd_add, OJ; reflexivity).
             pose proof (D _ (IJ (j + 1) ltac:(lia) OJ2)) as DJ. unfold disjoint, region_start in DJ. cbn in DJ.
             replace (w * (j + 1)) with (w * j + w) in DJ by ring. lia.
  Qed.
End Comb.
