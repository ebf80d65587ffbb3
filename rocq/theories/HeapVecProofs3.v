From Verif Require Export HeapVecProofs2.

Section Vec.
  Variable c : cfg.
  Variable sz : Z.
  Hypothesis PL : placed c.
  Hypothesis RM : roomy c.
  Hypothesis SP : 0 < sz.
  Notation vinv := (vinv c sz).
  Notation vec_ok := (vec_ok sz).

  (** Giving back the block of a vector; [b0] is another block. *)
  Lemma vfree_ok h l lo v : reachable c h l -> vec_ok h l lo v ->
    exists h' l', vfree c h (ve_data v) = Ok h' /\ reachable c h' l' /\
      (forall b, In b l -> hd_ptr b <> ve_data v -> In b l') /\ (forall b, In b l' -> In b l /\ hd_ptr b <> ve_data v) /\
      (forall b x, In b l -> hd_ptr b <> ve_data v -> hd_ptr b <= x < hd_ptr b + hd_req b -> h_mem h' x = h_mem h x).
  Proof.
    intros R [_ [-> | H]]; unfold vfree.
    - cbn [empty_vec ve_data]. exists h, l. split; [reflexivity|]. split; [exact R|]. split; [auto|]. split; [|auto].
      intros b B. split; [exact B|]. exact (reach_nonzero c PL RM h l b R B).
    - destruct H as (_ & _ & _ & DZ & _ & b & B & BP & _). destruct (Z.eqb_spec (ve_data v) 0); [contradiction|].
      destruct (vec_free c PL RM h l b R B) as (h' & E & R' & KB). rewrite BP in *.
      exists h', (filter (fun x => negb (hd_ptr x =? ve_data v)) l). split; [exact E|]. split; [exact R'|]. split; [|split].
      + intros b' B' NE. apply filter_In. split; [exact B'|]. destruct (Z.eqb_spec (hd_ptr b') (ve_data v)); [contradiction|reflexivity].
      + intros b' B'. apply filter_In in B'. destruct B' as [B' NE]. split; [exact B'|]. lia.
      + exact KB.
  Qed.

  (** A new block of [n] elements for vector [i], filled from the vector [u] and [extra];
      the vector's own block is given back. *)
  Definition refill (h : heap) (v u : vec) (n : Z) (extra : list elem) : res (heap * option vec) :=
    '(h, r) <- alloc_allocate c h sz n ;;
    match r with
    | None => Ok (h, None)
    | Some p =>
      h <- write_bytes c h (p + ve_size u * sz) (concat extra) ;;
      h <- write_bytes c h p (read_bytes (h_mem h) (ve_data u) (Z.to_nat (ve_size u * sz))) ;;
      h <- vfree c h (ve_data v) ;;
      Ok (h, Some (Vec p (ve_size u + Z.of_nat (length extra)) n))
    end.

  Lemma refill_ok w l lo i v k u n extra : vinv w l lo -> nth_error (vh_vecs w) i = Some v -> nth_error (vh_vecs w) k = Some u ->
    0 < n -> ve_size u + Z.of_nat (length extra) <= n <= max_size sz -> Forall (is_elem sz) extra -> (extra = [] \/ exists x, extra = [x]) ->
    exists h' r, refill (vh_heap w) v u n extra = Ok (h', r) /\
    match r with
    | None => reachable c h' l /\ unchanged (vh_heap w) h' /\ ~ exists a, free_window c l a (n * sz)
    | Some v' => (exists a, free_window c l a (n * sz)) /\ ve_cap v' = n /\ exists l',
        vinv (VH h' (vput (vh_vecs w) i v')) l' lo /\
        all_contents sz (VH h' (vput (vh_vecs w) i v')) = update (all_contents sz w) i (contents sz (vh_heap w) u ++ extra) /\
        (forall b x, In b lo -> hd_ptr b <= x < hd_ptr b + hd_req b -> h_mem h' x = h_mem (vh_heap w) x)
    end.
  Proof.
    intros VI EI EK N LE FE EX. pose proof (vi_vecs _ _ _ _ _ VI k u EK) as OKU. pose proof (vi_vecs _ _ _ _ _ VI i v EI) as OKV.
    pose proof (vi_reach _ _ _ _ _ VI) as R. pose proof (max_mul sz SP n (proj2 LE)) as NM.
    destruct (cap_bytes sz u _ _ _ OKU) as [US _].
    destruct (vec_alloc c sz PL RM SP (vh_heap w) l n R N NM) as (h1 & r & E1 & H1). unfold refill. rewrite E1. cbn [bind].
    destruct r as [p|]; [|exists h1, None; split; [reflexivity|exact H1]].
    destruct H1 as (PZ & WIN & PN & (fp & R1) & DIS & KB1).
    set (b0 := Held p (n * sz) fp) in *. set (h := vh_heap w) in *.
    assert (LX : Z.of_nat (length (concat extra)) = Z.of_nat (length extra) * sz).
    { destruct EX as [->|[x ->]]; [cbn; lia|]. inversion FE as [|? ? [Q _] _]; subst. cbn [concat length]. rewrite app_nil_r. lia. }
    assert (FX : Forall (fun b => 0 <= b < 256) (concat extra)).
    { destruct EX as [->|[x ->]]; [constructor|]. inversion FE as [|? ? [_ Q] _]; subst. cbn [concat]. rewrite app_nil_r. exact Q. }
    assert (OB : ve_size u * sz <= 0 \/ exists b, In b l /\ hd_ptr b = ve_data u /\ hd_req b = ve_cap u * sz /\ ve_size u <= ve_cap u).
    { destruct OKU as [_ [-> | (HS & _ & _ & _ & _ & b & B & BP & BQ)]]; [left; cbn; lia|right]. exists b. repeat (split; [assumption|]). lia. }
    assert (OUT : forall x, 0 <= x < ve_size u * sz -> ve_data u + x < p \/ p + n * sz <= ve_data u + x).
    { intros x X. destruct OB as [Z0|(b & B & BP & BQ & HS)]; [lia|]. pose proof (DIS b B) as D. unfold disjoint in D. rewrite BP, BQ in D. nia. }
    assert (K1 : forall x, 0 <= x < ve_size u * sz -> h_mem h1 (ve_data u + x) = h_mem h (ve_data u + x)).
    { intros x X. destruct OB as [Z0|(b & B & BP & BQ & HS)]; [lia|]. apply (KB1 b); [exact B|]. rewrite BP, BQ. nia. }
    destruct (write_ok c PL RM (concat extra) h1 (b0 :: l) b0 (p + ve_size u * sz) R1) as (h2 & E2 & R2 & _ & W2 & O2);
      [left; reflexivity|unfold b0; cbn [hd_ptr]; nia|unfold b0; cbn [hd_ptr hd_req]; nia|exact FX|].
    rewrite E2. cbn [bind].
    assert (K2 : forall x, 0 <= x < ve_size u * sz -> h_mem h2 (ve_data u + x) = h_mem h (ve_data u + x)).
    { intros x X. rewrite O2, K1 by (try exact X; specialize (OUT x X); nia). reflexivity. }
    assert (RB : read_bytes (h_mem h2) (ve_data u) (Z.to_nat (ve_size u * sz)) = read_bytes (h_mem h) (ve_data u) (Z.to_nat (ve_size u * sz))).
    { apply read_ext. intros j J. apply K2. lia. }
    rewrite RB.
    destruct (write_ok c PL RM (read_bytes (h_mem h) (ve_data u) (Z.to_nat (ve_size u * sz))) h2 (b0 :: l) b0 p R2) as (h3 & E3 & R3 & _ & W3 & O3);
      [left; reflexivity|unfold b0; cbn [hd_ptr]; lia|rewrite read_length; unfold b0; cbn [hd_ptr hd_req]; nia|apply elems_bytes; [exact SP|apply OKU|exact US]|].
    rewrite E3. cbn [bind]. rewrite read_length in *.
    assert (KB3 : forall b x, In b l -> hd_ptr b <= x < hd_ptr b + hd_req b -> h_mem h3 x = h_mem h x).
    { intros b x B X. pose proof (DIS b B) as D. unfold disjoint in D. rewrite O3, O2 by nia. apply (KB1 b x B X). }
    assert (V3 : vec_ok h3 (b0 :: l) lo v).
    { destruct OKV as [F [-> | H]]; [split; [constructor|left; reflexivity]|]. destruct H as (H1 & H2 & H3 & H4 & H5 & b & B & BP & BQ).
      split; [|right; repeat (split; [assumption|]); exists b; split; [right; exact B|auto]].
      rewrite (contents_ext sz SP h3 h v v); [exact F|reflexivity|]. intros x X. apply (KB3 b); [exact B|]. rewrite BP, BQ. nia. }
    destruct (vfree_ok h3 (b0 :: l) lo v R3 V3) as (h4 & l4 & E4 & R4 & I4 & J4 & KB4). rewrite E4. cbn [bind].
    assert (PV : p <> ve_data v).
    { destruct OKV as [_ [-> | (_ & _ & _ & _ & _ & b & B & BP & _)]]; [exact PZ|]. intros E. apply PN. rewrite E, <- BP. apply in_map, B. }
    set (v' := Vec p (ve_size u + Z.of_nat (length extra)) n).
    exists h4, (Some v'). split; [reflexivity|]. split; [exact WIN|]. split; [reflexivity|]. exists l4.
    assert (M4 : forall x, p <= x < p + n * sz -> h_mem h4 x = h_mem h3 x).
    { intros x X. apply (KB4 b0); [left; reflexivity|exact PV|exact X]. }
    assert (CV : contents sz h4 v' = contents sz h u ++ extra).
    { assert (C1 : contents sz h4 (Vec p (ve_size u) n) = contents sz h u).
      { apply contents_ext; [exact SP|reflexivity|]. cbn [ve_data ve_size]. intros x X. rewrite M4 by nia.
        replace (p + x) with (p + Z.of_nat (Z.to_nat x)) by lia. rewrite W3 by lia. rewrite read_nth by lia. f_equal. lia. }
      destruct EX as [->|[x ->]].
      - rewrite app_nil_r, <- C1. unfold v'. cbn [length Z.of_nat]. rewrite Z.add_0_r. reflexivity.
      - inversion FE as [|? ? EXX _]; subst. rewrite <- C1. apply (contents_snoc sz SP h4 v' x (ve_size u)); [exact US|exact EXX|reflexivity|].
        intros j J. destruct EXX as [LXX _]. unfold v'. cbn [ve_data]. rewrite M4 by (cbn [length] in LE; nia). rewrite O3 by lia.
        cbn [concat] in W2. rewrite app_nil_r in W2. apply W2. exact J. }
    rewrite <- CV. apply (vinv_set c sz PL RM SP w l lo i v h4 l4 v' VI EI R4).
    - intros b B NE. apply I4; [right; exact B|exact NE].
    - intros b B. destruct (J4 b B) as [[<-|BL] NE]; [left; reflexivity|right; auto].
    - intros b x B NE X. rewrite (KB4 b x); [|right; exact B|exact NE|exact X]. apply (KB3 b x B X).
    - split; [rewrite CV; apply Forall_app; split; [apply OKU|exact FE]|]. right. unfold v'. cbn [ve_size ve_cap ve_data].
      split; [lia|]. split; [exact N|]. split; [lia|]. split; [exact PZ|]. split.
      + intros IP. apply PN. apply in_map_iff in IP. destruct IP as (b & EB & B). rewrite <- EB. apply in_map, (vi_others _ _ _ _ _ VI), B.
      + exists b0. split; [apply I4; [left; reflexivity|exact PV]|auto].
    - right. exact PN.
  Qed.

  (** Storing bytes inside a vector's block. *)
  Lemma store_ok w l lo i v a bs : vinv w l lo -> nth_error (vh_vecs w) i = Some v -> bs = [] \/ (0 <= a /\ a + Z.of_nat (length bs) <= ve_cap v * sz) ->
    Forall (fun b => 0 <= b < 256) bs ->
    exists h', write_bytes c (vh_heap w) (ve_data v + a) bs = Ok h' /\ reachable c h' l /\ free_heap_size h' = free_heap_size (vh_heap w) /\
      (forall j, (j < length bs)%nat -> h_mem h' (ve_data v + a + Z.of_nat j) = nth j bs 0) /\
      (forall x, x < ve_data v + a \/ ve_data v + a + Z.of_nat (length bs) <= x -> h_mem h' x = h_mem (vh_heap w) x) /\
      (forall b x, In b l -> hd_ptr b <> ve_data v -> hd_ptr b <= x < hd_ptr b + hd_req b -> h_mem h' x = h_mem (vh_heap w) x).
  Proof.
    intros VI EI AB FB. pose proof (vi_reach _ _ _ _ _ VI) as R. destruct bs as [|y bs].
    - exists (vh_heap w). split; [reflexivity|]. split; [exact R|]. split; [reflexivity|]. split; [cbn; lia|]. split; reflexivity.
    - destruct AB as [?|[A0 A1]]; [discriminate|].
      destruct (vi_vecs _ _ _ _ _ VI i v EI) as [_ [-> | (_ & _ & _ & _ & _ & b & B & BP & BQ)]]; [cbn in A1; lia|].
      destruct (write_ok c PL RM (y :: bs) (vh_heap w) l b (ve_data v + a) R B) as (h' & E & R' & F & W & O); [lia|lia|exact FB|].
      exists h'. repeat (split; [assumption|]). intros b' x B' NE X. apply O.
      pose proof (blocks_apart c PL RM _ l b' b R B' B) as D. rewrite BP in D. specialize (D NE). unfold disjoint in D. rewrite BQ in D. lia.
  Qed.
End Vec.
