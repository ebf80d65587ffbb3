From Verif Require Export HeapVecProofs4.

Section Vec.
  Variable c : cfg.
  Variable sz : Z.
  Hypothesis PL : placed c.
  Hypothesis RM : roomy c.
  Hypothesis SP : 0 < sz.
  Hypothesis SB : sz < 2 ^ 63.
  Notation vinv := (vinv c sz).
  Notation vec_ok := (vec_ok sz).

  Lemma inplace w l lo i v h' v' : vinv w l lo -> nth_error (vh_vecs w) i = Some v -> reachable c h' l ->
    (forall b x, In b l -> hd_ptr b <> ve_data v -> hd_ptr b <= x < hd_ptr b + hd_req b -> h_mem h' x = h_mem (vh_heap w) x) ->
    ve_data v' = ve_data v -> ve_cap v' = ve_cap v -> 0 <= ve_size v' <= ve_cap v -> Forall (is_elem sz) (contents sz h' v') ->
    vinv (VH h' (vput (vh_vecs w) i v')) l lo /\
    all_contents sz (VH h' (vput (vh_vecs w) i v')) = update (all_contents sz w) i (contents sz h' v') /\
    (forall b x, In b lo -> hd_ptr b <= x < hd_ptr b + hd_req b -> h_mem h' x = h_mem (vh_heap w) x).
  Proof.
    intros VI EI R KB ED EC ES F. apply (vinv_set c sz PL RM SP w l lo i v h' l v' VI EI R); auto.
    - intros b B. destruct (Z.eq_dec (hd_ptr b) (ve_data v)); [left; congruence|right; auto].
    - split; [exact F|]. destruct (vi_vecs _ _ _ _ _ VI i v EI) as [_ [-> | H]].
      + left. destruct v' as [d s k]; unfold empty_vec in *; cbn in *. f_equal; lia.
      + right. rewrite ED, EC. destruct H as (H1 & H2). split; [lia|exact H2].
  Qed.

  Lemma size_bound w l lo i v : vinv w l lo -> nth_error (vh_vecs w) i = Some v ->
    0 <= ve_size v <= ve_cap v /\ ve_cap v <= max_size sz /\ (ve_cap v = 0 -> v = empty_vec).
  Proof.
    intros VI EI. pose proof (max_pos sz SP SB). destruct (vi_vecs _ _ _ _ _ VI i v EI) as [_ [-> | H']]; [cbn; repeat split; lia|]. repeat split; lia.
  Qed.
  Lemma max_top : max_size sz <= 2 ^ 63 - 1.
  Proof. unfold max_size. apply Z.div_le_upper_bound; nia. Qed.

  Lemma check_len_is s : 0 <= s <= max_size sz ->
    check_len sz s = if s =? max_size sz then None else Some (Z.min (max_size sz) (Z.max 1 (2 * s))).
  Proof.
    intros S. pose proof max_top. unfold check_len. unfold u64 at 1. rewrite Z.mod_small by (change W64 with (2 ^ 64); lia).
    replace (u64 (s + Z.max s 1)) with (s + Z.max s 1) by (unfold u64; rewrite Z.mod_small by (change W64 with (2 ^ 64); lia); reflexivity).
    destruct (Z.eqb_spec s (max_size sz)); destruct (Z.ltb_spec (max_size sz - s) 1); try lia; [reflexivity|]. f_equal.
    destruct (Z.ltb_spec (s + Z.max s 1) s); destruct (Z.ltb_spec (max_size sz) (s + Z.max s 1)); cbn [orb]; lia.
  Qed.

  (** What is proved of a command. *)
  Definition fine (w : vheap) (l lo : list held) (k : vcmd) : Prop :=
    exists w' r l', vstep c sz w k = Ok (w', r) /\
      vinv w' l' (vothers lo k r (free_heap_size (vh_heap w)) (free_heap_size (vh_heap w'))) /\
      all_contents sz w' = (if threw r then all_contents sz w else on_lists (all_contents sz w) k) /\
      (threw r = true -> vh_vecs w' = vh_vecs w /\ unchanged (vh_heap w) (vh_heap w')) /\
      (r = VBadAlloc <-> exists n, asks_for sz w k = Some n /\ ~ exists a, free_window c l a (n * sz)) /\
      (r = VLengthError <-> too_long sz w k) /\
      (is_other k = false -> forall b x, In b lo -> hd_ptr b <= x < hd_ptr b + hd_req b -> h_mem (vh_heap w') x = h_mem (vh_heap w) x).

  Lemma unchanged_refl h : unchanged h h.
  Proof. unfold unchanged. repeat split. Qed.

  (** A refused block: only the failure counter may differ. *)
  Lemma vinv_refused w l lo h' : vinv w l lo -> reachable c h' l -> unchanged (vh_heap w) h' ->
    vinv (VH h' (vh_vecs w)) l lo /\ all_contents sz (VH h' (vh_vecs w)) = all_contents sz w.
  Proof.
    intros [VR VO VV VA VAL] R U. destruct U as [M _].
    assert (CO : forall v, contents sz h' v = contents sz (vh_heap w) v) by (intros v; apply contents_ext; [exact SP|reflexivity|intros x _; apply M]).
    split; [constructor; cbn [vh_heap vh_vecs]; auto|].
    - intros i v E. destruct (VV i v E) as [F H]. split; [rewrite CO; exact F|exact H].
    - unfold all_contents. cbn [vh_heap vh_vecs]. apply map_ext. exact CO.
  Qed.

  (** A command that takes a new block. *)
  Lemma fine_refill w l lo k i v j u n extra :
    vinv w l lo -> nth_error (vh_vecs w) i = Some v -> nth_error (vh_vecs w) j = Some u ->
    0 < n -> ve_size u + Z.of_nat (length extra) <= n <= max_size sz -> Forall (is_elem sz) extra -> (extra = [] \/ exists x, extra = [x]) ->
    is_other k = false -> asks_for sz w k = Some n -> ~ too_long sz w k ->
    on_lists (all_contents sz w) k = update (all_contents sz w) i (contents sz (vh_heap w) u ++ extra) ->
    (forall h' r, refill c sz (vh_heap w) v u n extra = Ok (h', r) ->
      vstep c sz w k = Ok (match r with Some v' => (VH h' (vput (vh_vecs w) i v'), VDone) | None => (VH h' (vh_vecs w), VBadAlloc) end)) ->
    fine w l lo k.
  Proof.
    intros VI EI EJ N LE FE EX IO AF TL OL ST. destruct (refill_ok c sz PL RM SP w l lo i v j u n extra VI EI EJ N LE FE EX) as (h' & r & E & H).
    specialize (ST h' r E). unfold fine. destruct r as [v'|].
    - destruct H as (WIN & _ & l' & V' & C' & K'). exists (VH h' (vput (vh_vecs w) i v')), VDone, l'. split; [exact ST|].
      assert (EV : forall f g, vothers lo k VDone f g = lo) by (intros f g; destruct k; reflexivity). rewrite EV. split; [exact V'|].
      cbn [threw]. split; [rewrite C', OL; reflexivity|]. split; [discriminate|].
      split; [split; [discriminate|]; intros (m & AM & NW); rewrite AF in AM; injection AM as <-; contradiction|].
      split; [split; [discriminate|contradiction]|]. intros _. exact K'.
    - destruct H as (R' & U & NW). exists (VH h' (vh_vecs w)), VBadAlloc, l. split; [exact ST|].
      assert (EV : forall f g, vothers lo k VBadAlloc f g = lo) by (intros f g; destruct k; reflexivity). rewrite EV.
      destruct (vinv_refused w l lo h' VI R' U) as [V' C']. split; [exact V'|]. cbn [threw]. split; [exact C'|].
      split; [intros _; split; [reflexivity|exact U]|]. split; [split; [|reflexivity]; intros _; exists n; auto|].
      split; [split; [discriminate|contradiction]|]. intros _ b x _ _. apply U.
  Qed.

  (** A command that does not. *)
  Lemma fine_inplace w l lo k i v h' v' :
    vinv w l lo -> nth_error (vh_vecs w) i = Some v -> reachable c h' l ->
    (forall b x, In b l -> hd_ptr b <> ve_data v -> hd_ptr b <= x < hd_ptr b + hd_req b -> h_mem h' x = h_mem (vh_heap w) x) ->
    ve_data v' = ve_data v -> ve_cap v' = ve_cap v -> 0 <= ve_size v' <= ve_cap v -> Forall (is_elem sz) (contents sz h' v') ->
    is_other k = false -> asks_for sz w k = None -> ~ too_long sz w k ->
    on_lists (all_contents sz w) k = update (all_contents sz w) i (contents sz h' v') ->
    vstep c sz w k = Ok (VH h' (vput (vh_vecs w) i v'), VDone) ->
    fine w l lo k.
  Proof.
    intros VI EI R KB ED EC ES F IO AF TL OL ST. destruct (inplace w l lo i v h' v' VI EI R KB ED EC ES F) as (V' & C' & K').
    exists (VH h' (vput (vh_vecs w) i v')), VDone, l. split; [exact ST|].
    assert (EV : forall f g, vothers lo k VDone f g = lo) by (intros f g; destruct k; reflexivity). rewrite EV. split; [exact V'|].
    cbn [threw]. split; [rewrite C', OL; reflexivity|]. split; [discriminate|].
    split; [split; [discriminate|]; intros (m & AM & _); congruence|]. split; [split; [discriminate|contradiction]|]. intros _. exact K'.
  Qed.

  (** A command that throws std::length_error. *)
  Lemma fine_long w l lo k : vinv w l lo -> is_other k = false -> asks_for sz w k = None -> too_long sz w k ->
    vstep c sz w k = Ok (w, VLengthError) -> fine w l lo k.
  Proof.
    intros VI IO AF TL ST. exists w, VLengthError, l. split; [exact ST|].
    assert (EV : forall f g, vothers lo k VLengthError f g = lo) by (intros f g; destruct k; reflexivity). rewrite EV. split; [exact VI|].
    cbn [threw]. split; [reflexivity|]. split; [intros _; split; [reflexivity|apply unchanged_refl]|].
    split; [split; [discriminate|]; intros (m & AM & _); congruence|]. split; [split; [intros _; exact TL|reflexivity]|]. intros _ b x _ _. reflexivity.
  Qed.

  Lemma update_nth_id {A} (l : list A) i d : (i < length l)%nat -> update l i (nth i l d) = l.
  Proof. revert i. induction l as [|y l IH]; intros [|i] H; cbn in *; try lia; [reflexivity|f_equal; apply IH; lia]. Qed.
  Lemma all_length w : length (all_contents sz w) = length (vh_vecs w).
  Proof. unfold all_contents. apply map_length. Qed.
  Lemma vh_eta w : VH (vh_heap w) (vh_vecs w) = w.
  Proof. destruct w; reflexivity. Qed.
  Lemma some_nth {A} (l : list A) i : (i < length l)%nat -> exists v, nth_error l i = Some v.
  Proof. intros H. destruct (nth_error l i) as [v|] eqn:E; [eauto|]. apply nth_error_None in E. lia. Qed.

  Lemma fine_drop w l lo i : vinv w l lo -> (i < length (vh_vecs w))%nat -> fine w l lo (VDrop i).
  Proof.
    intros VI IL. destruct (some_nth _ _ IL) as [v EI].
    destruct (vfree_ok c sz PL RM SP (vh_heap w) l lo v (vi_reach _ _ _ _ _ VI) (vi_vecs _ _ _ _ _ VI i v EI)) as (h' & l' & E & R' & I1 & J1 & KB).
    destruct (vinv_set c sz PL RM SP w l lo i v h' l' empty_vec VI EI R' I1) as (V' & C' & K').
    - intros b B. right. exact (J1 b B).
    - exact KB.
    - split; [constructor|left; reflexivity].
    - right. cbn [empty_vec ve_data]. intros IN. apply in_map_iff in IN. destruct IN as (b & E0 & B).
      exact (reach_nonzero c PL RM _ _ b (vi_reach _ _ _ _ _ VI) B E0).
    - exists (VH h' (vput (vh_vecs w) i empty_vec)), VDone, l'. split; [unfold vstep, on_vec; rewrite EI, E; reflexivity|].
      cbn [vothers]. split; [exact V'|]. cbn [threw on_lists]. split; [exact C'|]. split; [discriminate|].
      split; [split; [discriminate|]; intros (m & AM & _); discriminate AM|]. split; [split; [discriminate|intros []]|]. intros _. exact K'.
  Qed.

  Lemma forall_prefix w i v n l lo : vinv w l lo -> nth_error (vh_vecs w) i = Some v -> 0 <= n <= ve_size v ->
    contents sz (vh_heap w) (Vec (ve_data v) n (ve_cap v)) = firstn (Z.to_nat n) (contents sz (vh_heap w) v) /\
    Forall (is_elem sz) (contents sz (vh_heap w) (Vec (ve_data v) n (ve_cap v))).
  Proof.
    intros VI EI N. assert (E : contents sz (vh_heap w) (Vec (ve_data v) n (ve_cap v)) = firstn (Z.to_nat n) (contents sz (vh_heap w) v)).
    { unfold contents. cbn [ve_data ve_size]. rewrite firstn_map. f_equal.
      replace (Z.to_nat (ve_size v)) with (Z.to_nat n + (Z.to_nat (ve_size v) - Z.to_nat n))%nat by lia.
      rewrite seq_app, firstn_app, seq_length, Nat.sub_diag. cbn [firstn]. rewrite app_nil_r, firstn_all2; [reflexivity|rewrite seq_length; lia]. }
    split; [exact E|]. rewrite E. destruct (vi_vecs _ _ _ _ _ VI i v EI) as [F _].
    apply Forall_forall. intros y Y. rewrite Forall_forall in F. apply F. rewrite <- (firstn_skipn (Z.to_nat n)). apply in_or_app. left. exact Y.
  Qed.

  Lemma fine_push w l lo i x : vinv w l lo -> (i < length (vh_vecs w))%nat -> is_elem sz x -> fine w l lo (VPush i x).
  Proof.
    intros VI IL EX. destruct (some_nth _ _ IL) as [v EI]. destruct (size_bound w l lo i v VI EI) as (SZ & CM & _).
    pose proof (all_nth sz w i v EI) as AN. destruct (Z.eq_dec (ve_size v) (ve_cap v)) as [FULL|NF].
    - assert (CL := check_len_is (ve_size v) ltac:(lia)). destruct (Z.eqb_spec (ve_size v) (max_size sz)) as [TL|NT].
      + apply fine_long; [exact VI|reflexivity| |exists v; auto|].
        * cbn [asks_for]. rewrite EI. destruct (Z.ltb_spec (ve_size v) (max_size sz)); [lia|]. rewrite andb_false_r. reflexivity.
        * unfold vstep, on_vec. rewrite EI. unfold push_back. destruct (Z.eqb_spec (ve_size v) (ve_cap v)); [|lia]. cbn [negb]. rewrite CL. cbn [bind].
          rewrite vput_same by exact EI. rewrite vh_eta. reflexivity.
      + set (n := Z.min (max_size sz) (Z.max 1 (2 * ve_size v))) in *. pose proof (max_pos sz SP SB).
        apply (fine_refill w l lo (VPush i x) i v i v n [x]); [exact VI|exact EI|exact EI|unfold n; lia|unfold n; cbn [length]; lia| |right; eauto|reflexivity| | | |].
        * constructor; [exact EX|constructor].
        * cbn [asks_for]. rewrite EI. destruct (Z.eqb_spec (ve_size v) (ve_cap v)); [|lia]. destruct (Z.ltb_spec (ve_size v) (max_size sz)); [|lia]. reflexivity.
        * cbn [too_long]. intros (u & EU & ES). rewrite EI in EU. injection EU as <-. contradiction.
        * cbn [on_lists]. rewrite AN. reflexivity.
        * intros h' r E. unfold vstep, on_vec. rewrite EI. unfold push_back. destruct (Z.eqb_spec (ve_size v) (ve_cap v)); [|lia]. cbn [negb]. rewrite CL.
          change (regrow c sz (vh_heap w) v n [x]) with (refill c sz (vh_heap w) v v n [x]). rewrite E. cbn [bind].
          destruct r; cbn [bind]; [reflexivity|]. rewrite vput_same by exact EI. reflexivity.
    - destruct EX as [LX FX]. destruct (store_ok c sz PL RM w l lo i v (ve_size v * sz) x VI EI) as (h' & E & R' & _ & W & O & KB); [right; nia|exact FX|].
      set (v' := Vec (ve_data v) (ve_size v + 1) (ve_cap v)).
      assert (CV : contents sz h' v' = contents sz (vh_heap w) v ++ [x]).
      { rewrite (contents_snoc sz SP h' v' x (ve_size v)); [|lia|split; assumption|reflexivity|exact W]. f_equal.
        apply contents_ext; [exact SP|reflexivity|]. cbn [ve_data ve_size v']. intros y Y. apply O. lia. }
      apply (fine_inplace w l lo (VPush i x) i v h' v'); [exact VI|exact EI|exact R'|exact KB|reflexivity|reflexivity|cbn; lia| |reflexivity| | | |].
      + rewrite CV. apply Forall_app. split; [apply (vi_vecs _ _ _ _ _ VI i v EI)|]. constructor; [split; assumption|constructor].
      + cbn [asks_for]. rewrite EI. destruct (Z.eqb_spec (ve_size v) (ve_cap v)); [lia|]. reflexivity.
      + cbn [too_long]. intros (u & EU & ES). rewrite EI in EU. injection EU as <-. lia.
      + cbn [on_lists]. rewrite AN, CV. reflexivity.
      + unfold vstep, on_vec. rewrite EI. unfold push_back. destruct (Z.eqb_spec (ve_size v) (ve_cap v)); [lia|]. cbn [negb]. rewrite E. reflexivity.
  Qed.

  Lemma fine_pop w l lo i v : vinv w l lo -> nth_error (vh_vecs w) i = Some v -> contents sz (vh_heap w) v <> [] -> fine w l lo (VPop i).
  Proof.
    intros VI EI NE. destruct (size_bound w l lo i v VI EI) as (SZ & CM & _). pose proof (all_nth sz w i v EI) as AN.
    assert (NZ : ve_size v <> 0). { intros E. apply NE. unfold contents. rewrite E. reflexivity. }
    destruct (forall_prefix w i v (ve_size v - 1) l lo VI EI ltac:(lia)) as [CP FP].
    apply (fine_inplace w l lo (VPop i) i v (vh_heap w) (Vec (ve_data v) (ve_size v - 1) (ve_cap v))); [exact VI|exact EI|exact (vi_reach _ _ _ _ _ VI)|auto|reflexivity|reflexivity|cbn; lia|exact FP|reflexivity|reflexivity|intros []| |].
    - cbn [on_lists]. rewrite AN, CP. f_equal. rewrite removelast_firstn_len, contents_length. f_equal. lia.
    - unfold vstep, on_vec. rewrite EI. destruct (Z.eqb_spec (ve_size v) 0); [contradiction|]. reflexivity.
  Qed.

  Lemma fine_clear w l lo i : vinv w l lo -> (i < length (vh_vecs w))%nat -> fine w l lo (VClear i).
  Proof.
    intros VI IL. destruct (some_nth _ _ IL) as [v EI]. destruct (size_bound w l lo i v VI EI) as (SZ & CM & _).
    apply (fine_inplace w l lo (VClear i) i v (vh_heap w) (Vec (ve_data v) 0 (ve_cap v))); [exact VI|exact EI|exact (vi_reach _ _ _ _ _ VI)|auto|reflexivity|reflexivity|cbn; lia|constructor|reflexivity|reflexivity|intros []|reflexivity|].
    unfold vstep, on_vec. rewrite EI. reflexivity.
  Qed.

  Lemma update_nth {A} (l : list A) i x d j : (i < length l)%nat -> nth j (update l i x) d = if (j =? i)%nat then x else nth j l d.
  Proof.
    revert i j. induction l as [|y l IH]; intros [|i] [|j] H; cbn in *; try lia; try reflexivity. rewrite IH by lia. reflexivity.
  Qed.
  Lemma update_length {A} (l : list A) i x : length (update l i x) = length l.
  Proof. revert i. induction l as [|y l IH]; intros [|i]; cbn; auto. Qed.
  Lemma contents_nth h v j : (j < Z.to_nat (ve_size v))%nat ->
    nth j (contents sz h v) [] = read_bytes (h_mem h) (ve_data v + Z.of_nat j * sz) (Z.to_nat sz).
  Proof.
    intros J. unfold contents. rewrite (nth_indep _ [] (read_bytes (h_mem h) (ve_data v + Z.of_nat 0%nat * sz) (Z.to_nat sz))) by (rewrite map_length, seq_length; exact J).
    rewrite (map_nth (fun k => read_bytes (h_mem h) (ve_data v + Z.of_nat k * sz) (Z.to_nat sz)) (seq 0 (Z.to_nat (ve_size v))) 0%nat j), seq_nth by exact J. reflexivity.
  Qed.

  Lemma fine_set w l lo i j x v : vinv w l lo -> is_elem sz x -> nth_error (vh_vecs w) i = Some v -> (j < length (contents sz (vh_heap w) v))%nat ->
    fine w l lo (VSet i j x).
  Proof.
    intros VI [LX FX] EI JL. rewrite contents_length in JL. destruct (size_bound w l lo i v VI EI) as (SZ & CM & _). pose proof (all_nth sz w i v EI) as AN.
    destruct (store_ok c sz PL RM w l lo i v (Z.of_nat j * sz) x VI EI) as (h' & E & R' & _ & W & O & KB); [right; nia|exact FX|].
    assert (CV : contents sz h' v = update (contents sz (vh_heap w) v) j x).
    { apply (nth_ext _ _ [] []); [rewrite update_length, !contents_length; reflexivity|]. intros m M. rewrite contents_length in M.
      rewrite update_nth by (rewrite contents_length; exact JL). rewrite !contents_nth by exact M. destruct (Nat.eqb_spec m j) as [->|NE].
      - replace (Z.to_nat sz) with (length x) by lia. apply read_is. exact W.
      - apply read_ext. intros y Y. apply O. rewrite LX. rewrite Z2Nat.id in Y by lia. nia. }
    apply (fine_inplace w l lo (VSet i j x) i v h' v); [exact VI|exact EI|exact R'|exact KB|reflexivity|reflexivity|lia| |reflexivity|reflexivity|intros []| |].
    - rewrite CV. pose proof (vi_vecs _ _ _ _ _ VI i v EI) as [F _]. apply Forall_forall. intros y Y. apply (In_nth _ _ []) in Y. destruct Y as (m & M & EY).
      rewrite update_length in M. rewrite update_nth in EY by (rewrite contents_length; exact JL). destruct (m =? j)%nat; [subst y; split; assumption|].
      rewrite <- EY. rewrite Forall_forall in F. apply F. apply nth_In, M.
    - cbn [on_lists]. rewrite AN, CV. reflexivity.
    - unfold vstep, on_vec. rewrite EI. destruct (Z.leb_spec (ve_size v) (Z.of_nat j)); [lia|]. rewrite E. reflexivity.
  Qed.

  Lemma fine_reserve w l lo i n : vinv w l lo -> (i < length (vh_vecs w))%nat -> is_size n -> fine w l lo (VReserve i n).
  Proof.
    intros VI IL NS. destruct (some_nth _ _ IL) as [v EI]. destruct (size_bound w l lo i v VI EI) as (SZ & CM & _). pose proof (all_nth sz w i v EI) as AN.
    unfold is_size in NS. destruct (Z.ltb_spec (max_size sz) n) as [TL|NT].
    - apply fine_long; [exact VI|reflexivity| |exact TL|].
      + cbn [asks_for]. rewrite EI. destruct (Z.leb_spec n (max_size sz)); [lia|]. rewrite andb_false_r. reflexivity.
      + unfold vstep, on_vec. rewrite EI. unfold reserve. destruct (Z.ltb_spec (max_size sz) n); [|lia]. cbn [bind].
        rewrite vput_same by exact EI. rewrite vh_eta. reflexivity.
    - destruct (Z.ltb_spec (ve_cap v) n) as [GR|NG].
      + apply (fine_refill w l lo (VReserve i n) i v i v n []); [exact VI|exact EI|exact EI|lia|cbn [length]; lia|constructor|left; reflexivity|reflexivity| | | |].
        * cbn [asks_for]. rewrite EI. destruct (Z.ltb_spec (ve_cap v) n); [|lia]. destruct (Z.leb_spec n (max_size sz)); [|lia]. reflexivity.
        * cbn [too_long]. lia.
        * cbn [on_lists]. rewrite app_nil_r, <- AN. rewrite update_nth_id; [reflexivity|rewrite all_length; exact IL].
        * intros h' r E. unfold vstep, on_vec. rewrite EI. unfold reserve. destruct (Z.ltb_spec (max_size sz) n); [lia|]. destruct (Z.ltb_spec (ve_cap v) n); [|lia].
          change (regrow c sz (vh_heap w) v n []) with (refill c sz (vh_heap w) v v n []). rewrite E. cbn [bind].
          destruct r; cbn [bind]; [reflexivity|]. rewrite vput_same by exact EI. reflexivity.
      + apply (fine_inplace w l lo (VReserve i n) i v (vh_heap w) v); [exact VI|exact EI|exact (vi_reach _ _ _ _ _ VI)|auto|reflexivity|reflexivity|lia|apply (vi_vecs _ _ _ _ _ VI i v EI)|reflexivity| |cbn [too_long]; lia| |].
        * cbn [asks_for]. rewrite EI. destruct (Z.ltb_spec (ve_cap v) n); [lia|]. reflexivity.
        * cbn [on_lists]. rewrite <- AN. rewrite update_nth_id; [reflexivity|rewrite all_length; exact IL].
        * unfold vstep, on_vec. rewrite EI. unfold reserve. destruct (Z.ltb_spec (max_size sz) n); [lia|]. destruct (Z.ltb_spec (ve_cap v) n); [lia|]. reflexivity.
  Qed.

  Lemma fine_copy w l lo i j : vinv w l lo -> (i < length (vh_vecs w))%nat -> (j < length (vh_vecs w))%nat -> fine w l lo (VCopy i j).
  Proof.
    intros VI IL JL. destruct (some_nth _ _ IL) as [v EI]. destruct (some_nth _ _ JL) as [u EJ].
    destruct (size_bound w l lo i v VI EI) as (SZ & CM & _). destruct (size_bound w l lo j u VI EJ) as (SU & CU & _).
    pose proof (all_nth sz w i v EI) as AN. pose proof (all_nth sz w j u EJ) as AJ.
    destruct (Nat.eq_dec i j) as [<-|NE].
    - rewrite EI in EJ. injection EJ as <-.
      apply (fine_inplace w l lo (VCopy i i) i v (vh_heap w) v); [exact VI|exact EI|exact (vi_reach _ _ _ _ _ VI)|auto|reflexivity|reflexivity|lia|apply (vi_vecs _ _ _ _ _ VI i v EI)|reflexivity| |intros []| |].
      + cbn [asks_for]. rewrite EI. destruct (Z.ltb_spec (ve_cap v) (ve_size v)); [lia|]. reflexivity.
      + cbn [on_lists]. rewrite AN. reflexivity.
      + unfold vstep. rewrite EI, Nat.eqb_refl. rewrite vput_same by exact EI. rewrite vh_eta. reflexivity.
    - assert (NB : (i =? j)%nat = false) by (apply Nat.eqb_neq, NE). destruct (Z.ltb_spec (ve_cap v) (ve_size u)) as [GR|NG].
      + apply (fine_refill w l lo (VCopy i j) i v j u (ve_size u) []); [exact VI|exact EI|exact EJ|lia|cbn [length]; lia|constructor|left; reflexivity|reflexivity| |intros []| |].
        * cbn [asks_for]. rewrite EI, EJ. destruct (Z.ltb_spec (ve_cap v) (ve_size u)); [|lia]. reflexivity.
        * cbn [on_lists]. rewrite app_nil_r, AJ. reflexivity.
        * intros h' r E. unfold vstep, on_vec. rewrite EJ, NB, EI. unfold copy_assign. destruct (Z.ltb_spec (ve_cap v) (ve_size u)); [|lia].
          unfold refill in E. destruct (alloc_allocate c (vh_heap w) sz (ve_size u)) as [[h1 [p|]]| |]; cbn [bind] in E |- *; try discriminate E.
          -- cbn [concat write_bytes bind length] in E. destruct (write_bytes c h1 p _) as [h2| |]; cbn [bind] in E |- *; try discriminate E.
             destruct (vfree c h2 (ve_data v)) as [h3| |]; cbn [bind] in E |- *; try discriminate E. injection E as <- <-. cbn [Z.of_nat]. rewrite Z.add_0_r. reflexivity.
          -- injection E as <- <-. rewrite vput_same by exact EI. reflexivity.
      + set (bs := read_bytes (h_mem (vh_heap w)) (ve_data u) (Z.to_nat (ve_size u * sz))).
        assert (LB : length bs = Z.to_nat (ve_size u * sz)) by apply read_length.
        destruct (store_ok c sz PL RM w l lo i v 0 bs VI EI) as (h' & E & R' & _ & W & O & KB);
          [right; rewrite LB; nia|apply elems_bytes; [exact SP|apply (vi_vecs _ _ _ _ _ VI j u EJ)|lia]|].
        rewrite Z.add_0_r in E, W, O.
        assert (CV : contents sz h' (Vec (ve_data v) (ve_size u) (ve_cap v)) = contents sz (vh_heap w) u).
        { apply contents_ext; [exact SP|reflexivity|]. cbn [ve_data ve_size]. intros y Y.
          replace (ve_data v + y) with (ve_data v + Z.of_nat (Z.to_nat y)) by lia. rewrite W by lia. unfold bs. rewrite read_nth by lia. f_equal. lia. }
        apply (fine_inplace w l lo (VCopy i j) i v h' (Vec (ve_data v) (ve_size u) (ve_cap v))); [exact VI|exact EI|exact R'|exact KB|reflexivity|reflexivity|cbn [ve_size]; lia|rewrite CV; apply (vi_vecs _ _ _ _ _ VI j u EJ)|reflexivity| |intros []| |].
        * cbn [asks_for]. rewrite EI, EJ. destruct (Z.ltb_spec (ve_cap v) (ve_size u)); [lia|]. reflexivity.
        * cbn [on_lists]. rewrite AJ, CV. reflexivity.
        * unfold vstep, on_vec. rewrite EJ, NB, EI. unfold copy_assign. destruct (Z.ltb_spec (ve_cap v) (ve_size u)); [lia|]. fold bs. rewrite E. reflexivity.
  Qed.

  Lemma fine_step w l lo k : vinv w l lo -> vpermitted sz w lo k -> fine w l lo k.
  Proof.
    intros VI P. destruct k as [|i|i x|i|i j x|i n|i|i j|o]; cbn [vpermitted] in P.
    - destruct (vinv_new c sz w l lo VI) as [V' C'].
      exists (VH (vh_heap w) (vh_vecs w ++ [empty_vec])), VDone, l. split; [reflexivity|]. cbn [vothers]. split; [exact V'|]. cbn [threw on_lists].
      split; [exact C'|]. split; [discriminate|]. split; [split; [discriminate|]; intros (m & AM & _); discriminate AM|]. split; [split; [discriminate|intros []]|]. reflexivity.
    - exact (fine_drop w l lo i VI P).
    - exact (fine_push w l lo i x VI (proj1 P) (proj2 P)).
    - destruct P as (v & EI & NE). exact (fine_pop w l lo i v VI EI NE).
    - destruct P as (EX & v & EI & JL). exact (fine_set w l lo i j x v VI EX EI JL).
    - exact (fine_reserve w l lo i n VI (proj1 P) (proj2 P)).
    - exact (fine_clear w l lo i VI P).
    - exact (fine_copy w l lo i j VI (proj1 P) (proj2 P)).
    - destruct (vinv_other c sz PL RM SP w l lo o VI P) as (h' & p & A & V' & C').
      exists (VH h' (vh_vecs w)), (VGot p), (hold l o p (free_heap_size (vh_heap w)) (free_heap_size h')).
      split; [unfold vstep; rewrite A; reflexivity|]. cbn [vothers vh_heap]. split; [exact V'|]. cbn [threw on_lists]. split; [exact C'|].
      split; [discriminate|]. split; [split; [discriminate|]; intros (m & AM & _); discriminate AM|]. split; [split; [discriminate|intros []]|]. discriminate.
  Qed.

  Lemma runs_inv w lo evs : vruns c sz w lo evs -> (exists l, vinv w l lo) /\ all_contents sz w = on_lists_all evs.
  Proof.
    induction 1 as [h0 E|w lo evs k w' r RU [[l VI] CO] P ST].
    - split; [exists []; exact (vinv_start c sz h0 E)|reflexivity].
    - destruct (fine_step w l lo k VI P) as (w1 & r1 & l1 & ST1 & V1 & C1 & _). rewrite ST in ST1. injection ST1 as <- <-.
      split; [exists l1; exact V1|]. unfold on_lists_all. rewrite fold_left_app. cbn [fold_left fst snd]. rewrite C1, CO. reflexivity.
  Qed.
End Vec.
