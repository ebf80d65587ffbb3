(** Construction for every size, the allocator adaptor, and concrete witnesses. *)
From Verif Require Export HeapProofs5.

Lemma wk_in c a : c_xs c mod 8 = 0 -> a mod 8 = 0 ->
  (c_base c <= a /\ a + 16 <= c_base c + c_size c) \/ a = c_xs c ->
  word_ok c a = true /\ word_ok c (a + 8) = true.
Proof. intros X M H. apply hdr_ok_words; [exact X|]. split; [exact M|exact H]. Qed.

Lemma word_ok_false c a : ~ (c_base c <= a /\ a + 8 <= c_base c + c_size c) -> a <> c_xs c -> a <> c_xs c + 8 ->
  word_ok c a = false.
Proof. intros A B C. unfold word_ok. lia. Qed.

Section Cons.
Context (c : cfg) (PL : placed c).

Lemma construct_start :
  (if negb (Z.land (c_base c) port_byte_alignment_mask =? 0)
   then (Z.land (u64 (c_base c + (port_byte_alignment - 1))) not_mask,
         u64 (c_size c - u64 (Z.land (u64 (c_base c + (port_byte_alignment - 1))) not_mask - c_base c)))
   else (c_base c, c_size c)) =
  (area_start c, u64 (c_size c - (area_start c - c_base c))).
Proof.
  destruct PL. unfold port_byte_alignment_mask, port_byte_alignment. rewrite land_mask7, nmask_val.
  pose proof (area_start_ge c).
  destruct (c_base c mod 8 =? 0) eqn:E; cbn [negb].
  - unfold area_start in *. rewrite u64_id; [f_equal; lia|]. lia.
  - rewrite (u64_id (c_base c + (8 - 1))) by lia.
    rewrite land_hi_mask by lia.
    change ((c_base c + (8 - 1)) / 8 * 8) with (area_start c).
    unfold area_start in *.
    rewrite (u64_id ((c_base c + 7) / 8 * 8 - c_base c)) by lia. reflexivity.
Qed.

Lemma construct_end :
  Z.land (u64 (u64 (area_start c + u64 (c_size c - (area_start c - c_base c))) - 16)) 18446744073709551608
  = u64 (area_end c).
Proof.
  destruct PL. rewrite land_hi_mask by apply u64_range.
  assert (E : u64 (u64 (area_start c + u64 (c_size c - (area_start c - c_base c))) - 16)
              = u64 (c_base c + c_size c - 16)).
  { unfold u64. rewrite Zminus_mod_idemp_l, Zplus_mod_idemp_r || idtac.
    rewrite <- (Zminus_mod_idemp_l _ 16). rewrite Zplus_mod_idemp_r, Z.mod_mod by (rewrite W64_val; lia).
    rewrite Zminus_mod_idemp_l. f_equal. lia. }
  rewrite E. unfold area_end, u64. rewrite W64_val in *.
  destruct (Z_le_gt_dec 0 (c_base c + c_size c - 16)).
  - rewrite !Z.mod_small; lia.
  - assert (c_base c + c_size c - 16 < 0) by lia.
    replace ((c_base c + c_size c - 16) mod 18446744073709551616)
      with (c_base c + c_size c - 16 + 18446744073709551616) by lia.
    lia.
Qed.

Lemma construct_any :
  c_base c <= area_end c ->
  exists h, construct c = Ok h /\
    free_heap_size h = area_end c - area_start c /\
    minimum_ever_free_heap_size h = area_end c - area_start c /\
    h_allocs h = 0 /\ h_frees h = 0 /\ h_cb h = false /\ h_fired h = 0.
Proof.
  intros B. unfold construct. cbv zeta. rewrite construct_start, hss_val, nmask_val, construct_end.
  pose proof (area_end_le c) as EL. pose proof (area_end_mod c) as EM.
  pose proof (area_start_ge c) as SL. pose proof (area_start_mod c) as SM.
  destruct PL.
  assert (SE : area_start c <= area_end c) by (unfold area_start, area_end in *; lia).
  assert (EU : u64 (area_end c) = area_end c) by (apply u64_id; lia). rewrite EU.
  destruct (wk_in c (c_xs c) pl_al pl_al (or_intror eq_refl)) as [X1 X2].
  destruct (wk_in c (area_end c) pl_al EM ltac:(left; lia)) as [E1 E2].
  destruct (wk_in c (area_start c) pl_al SM ltac:(left; lia)) as [S1 S2].
  unfold st_next, st_size, ld_size, store, load.
  rewrite X1. cbn [bind]. rewrite X2. cbn [bind]. rewrite E2. cbn [bind]. rewrite E1. cbn [bind].
  rewrite S2. cbn [bind]. rewrite S1. cbn [bind].
  rewrite rd_wr_other by lia.
  rewrite (u64_id (area_end c - area_start c)) by lia.
  rewrite rd_wr_same by lia.
  eexists. split; [reflexivity|]. cbn. auto 10.
Qed.

Lemma construct_bad : area_end c < c_base c -> construct c = UB.
Proof.
  intros B. unfold construct. cbv zeta. rewrite construct_start, hss_val, nmask_val, construct_end.
  pose proof (area_end_mod c) as EM. destruct PL.
  destruct (wk_in c (c_xs c) pl_al pl_al (or_intror eq_refl)) as [X1 X2].
  unfold st_next, st_size, ld_size, store, load.
  rewrite X1. cbn [bind]. rewrite X2. cbn [bind].
  assert (E1 : word_ok c (u64 (area_end c)) = false).
  { apply word_ok_false.
    - intros [H1 H2]. unfold u64 in *. rewrite W64_val in *. unfold area_end in *.
      destruct (Z_le_gt_dec 0 (c_base c + c_size c - 16)); [rewrite Z.mod_small in H1; lia|].
      lia.
    - unfold u64 in *. rewrite W64_val in *. unfold area_end in *.
      destruct (Z_le_gt_dec 0 (c_base c + c_size c - 16)); [rewrite Z.mod_small; lia|].
      lia.
    - unfold u64 in *. rewrite W64_val in *. unfold area_end in *.
      destruct (Z_le_gt_dec 0 (c_base c + c_size c - 16)); [rewrite Z.mod_small; lia|].
      lia. }
  destruct (word_ok c (u64 (area_end c) + 8)); cbn [bind]; [|reflexivity].
  rewrite E1. reflexivity.
Qed.

Lemma construct_iff : construct c = UB <-> area_end c < c_base c.
Proof.
  split; [|apply construct_bad].
  intros E. destruct (Z_lt_ge_dec (area_end c) (c_base c)) as [|GE]; [assumption|].
  destruct (construct_any ltac:(lia)) as (h & E' & _). congruence.
Qed.

(** A buffer with room for the end marker only: every request is refused. *)
Lemma tiny_refuses h n :
  ~ roomy c -> construct c = Ok h -> is_size n ->
  allocate c h n = Ok (h, 0).
Proof.
  intros NR E N.
  assert (B : c_base c <= area_end c).
  { destruct (Z_lt_ge_dec (area_end c) (c_base c)) as [L|]; [|lia].
    rewrite construct_bad in E by exact L. discriminate. }
  destruct (construct_any B) as (h' & E' & F & _ & _ & _ & CB & _). rewrite E in E'. injection E' as <-.
  unfold roomy in NR. unfold free_heap_size in F.
  unfold allocate. rewrite adjust_spec by exact N.
  assert (A : forall w, w = 0 \/ 24 <= w -> allocate_core c h w = Ok (h, 0)).
  { intros w W. unfold allocate_core. destruct (heap_block_size_is_valid w); [|reflexivity].
    replace ((0 <? w) && (w <=? h_free h)) with false by lia. reflexivity. }
  rewrite A.
  - cbn [bind]. rewrite CB. rewrite andb_false_r. reflexivity.
  - destruct (0 <? n) eqn:N0; cbn [andb]; [|auto].
    destruct (needed n <? W64); [|auto].
    right. apply needed_bounds. lia.
Qed.
End Cons.

(** ** static_heap_allocator *)
Lemma allocator_alloc c h l sz n :
  placed c -> roomy c -> reachable c h l -> 0 < sz -> 0 <= n -> n * sz < W64 ->
  exists h' r, alloc_allocate c h sz n = Ok (h', r) /\
  match r with
  | Some p => p <> 0 /\ p mod 8 = 0 /\ c_base c <= p /\ p + n * sz <= c_base c + c_size c /\
              (forall b, In b l -> disjoint p (n * sz) (hd_ptr b) (hd_req b)) /\
              reachable c h' (Held p (n * sz) (free_heap_size h - free_heap_size h') :: l)
  | None => unchanged h h' /\ reachable c h' l
  end.
Proof.
  intros PL RM R S N W.
  assert (P0 : 0 <= n * sz) by (apply Z.mul_nonneg_nonneg; lia).
  assert (NS : is_size (n * sz)) by (unfold is_size; lia).
  destruct (calls_defined c PL RM h l (Alloc (n * sz)) R NS) as (h' & r & A).
  pose proof (reachable_step c h l (Alloc (n * sz)) h' r R NS A) as R'. cbn [hold] in R'.
  unfold alloc_allocate. rewrite u64_id by lia. cbn [apply] in A. rewrite A. cbn [bind].
  destruct (Z.eqb_spec r 0) as [E|E]; cbn [negb].
  - exists h', None. split; [reflexivity|]. split; [|exact R'].
    apply (alloc_fail c PL RM _ _ _ _ _ R NS A), E.
  - exists h', (Some r). split; [reflexivity|]. split; [exact E|].
    pose proof (alloc_block c PL RM _ _ _ _ _ R NS A E) as (B1 & B2 & B3 & B4).
    repeat split; auto.
Qed.

(** ** witnesses *)
Definition c_ex : cfg := {| c_size := 256; c_base := 65568; c_xs := 65824 |}.
Lemma c_ex_placed : placed c_ex.
Proof. constructor; vm_compute; intuition congruence. Qed.
Lemma c_ex_roomy : roomy c_ex.
Proof. vm_compute. intuition congruence. Qed.

Definition h_ex : heap := match construct c_ex with Ok h => h | _ => mkHeap mem0 0 0 0 0 0 false 0 end.
Lemma h_ex_ok : construct c_ex = Ok h_ex.
Proof.
  unfold h_ex. destruct (construct_any c_ex c_ex_placed) as (h & E & _).
  - vm_compute; intuition congruence.
  - rewrite E. reflexivity.
Qed.

(** Run a list of operations on the example heap. *)
Definition state_after (ops : list op) : heap * list held :=
  match run c_ex h_ex [] ops with Some (_, h, l) => (h, l) | None => (h_ex, []) end.
Definition events_of (ops : list op) : list event :=
  match run c_ex h_ex [] ops with Some (e, _, _) => e | None => [] end.
Definition runs (ops : list op) : bool :=
  match run c_ex h_ex [] ops with Some _ => true | None => false end.

Lemma state_after_session ops : runs ops = true ->
  session c_ex h_ex [] (events_of ops) (fst (state_after ops)) (snd (state_after ops)).
Proof.
  unfold runs, state_after, events_of. destruct (run c_ex h_ex [] ops) as [[[e h] l]|] eqn:E; [|discriminate].
  intros _. exact (run_session _ _ _ _ _ _ _ E).
Qed.

Lemma state_after_reachable ops : runs ops = true ->
  reachable c_ex (fst (state_after ops)) (snd (state_after ops)).
Proof. intros H. exists h_ex, (events_of ops). split; [apply h_ex_ok|apply state_after_session, H]. Qed.

(** The client reuses the memory of two freed blocks as one larger block and
    stores bytes of its own over the place where the second block's header was. *)
Definition forge_ops : list op :=
  [Alloc 8; Alloc 8; Free 65584; Free 65608; Alloc 64;
   Write 65592 0x56; Write 65593 0x55; Write 65594 0x65; Write 65595 0;
   Write 65596 0; Write 65597 0; Write 65598 0; Write 65599 0;
   Write 65600 24; Write 65601 0; Write 65602 0; Write 65603 0;
   Write 65604 0; Write 65605 0; Write 65606 0; Write 65607 0x80].

Lemma stale_free_not_harmless :
  exists c h0 evs h l p h',
    placed c /\ roomy c /\ construct c = Ok h0 /\ session c h0 [] evs h l /\
    (exists n f, In (Alloc n, p, f) evs) /\ ~ In p (map hd_ptr l) /\
    deallocate c h p = Ok h' /\ free_heap_size h' <> free_heap_size h.
Proof.
  exists c_ex, h_ex, (events_of forge_ops), (fst (state_after forge_ops)), (snd (state_after forge_ops)), 65608.
  destruct (deallocate c_ex (fst (state_after forge_ops)) 65608) as [h'| |] eqn:E.
  - exists h'. split; [apply c_ex_placed|]. split; [apply c_ex_roomy|]. split; [apply h_ex_ok|].
    split; [apply state_after_session; vm_compute; reflexivity|].
    split; [exists 8, 192; vm_compute; tauto|].
    split; [vm_compute; intuition congruence|]. split; [reflexivity|].
    assert (X : match deallocate c_ex (fst (state_after forge_ops)) 65608 with
                | Ok h' => negb (free_heap_size h' =? free_heap_size (fst (state_after forge_ops)))
                | _ => false end = true) by (vm_compute; reflexivity).
    rewrite E in X. intros Q. rewrite Q, Z.eqb_refl in X. discriminate X.
  - exfalso. assert (X : match deallocate c_ex (fst (state_after forge_ops)) 65608 with
                | Ok _ => true | _ => false end = true) by (vm_compute; reflexivity).
    rewrite E in X. discriminate X.
  - exfalso. assert (X : match deallocate c_ex (fst (state_after forge_ops)) 65608 with
                | Ok _ => true | _ => false end = true) by (vm_compute; reflexivity).
    rewrite E in X. discriminate X.
Qed.

Lemma allocator_wraps :
  exists c h l n sz h' p,
    placed c /\ roomy c /\ reachable c h l /\ 0 <= n < W64 /\ 0 < sz /\
    alloc_allocate c h sz n = Ok (h', Some p) /\ c_base c + c_size c < p + n * sz.
Proof.
  exists c_ex, h_ex, [], (2 ^ 61 + 1), 8.
  destruct (alloc_allocate c_ex h_ex 8 (2 ^ 61 + 1)) as [[h' [p|]]| |] eqn:E.
  1:{ exists h', p. split; [apply c_ex_placed|]. split; [apply c_ex_roomy|].
      split; [exists h_ex, []; split; [apply h_ex_ok|constructor]|].
      split; [rewrite W64_val; lia|]. split; [lia|]. split; [reflexivity|].
      assert (X : match alloc_allocate c_ex h_ex 8 (2 ^ 61 + 1) with
                  | Ok (_, Some p) => 0 <? p | _ => false end = true) by (vm_compute; reflexivity).
      rewrite E in X. cbn [c_ex c_base c_size]. lia. }
  all: exfalso; assert (X : match alloc_allocate c_ex h_ex 8 (2 ^ 61 + 1) with
                  | Ok (_, Some p) => 0 <? p | _ => false end = true) by (vm_compute; reflexivity);
    rewrite E in X; discriminate X.
Qed.

Lemma wrapped_success c h l n sz h' p :
  placed c -> roomy c -> reachable c h l -> 0 <= n < W64 -> 0 < sz -> W64 <= n * sz ->
  alloc_allocate c h sz n = Ok (h', Some p) -> c_base c + c_size c < p + n * sz.
Proof.
  intros PL RM R Hn Hs HW E. unfold alloc_allocate in E.
  destruct (allocate c h (u64 (n * sz))) as [[h1 r]| |] eqn:EA; cbn [bind] in E; try discriminate.
  destruct (r =? 0) eqn:Er; cbn [negb] in E; inversion E; subst.
  destruct (alloc_block c PL RM h l (u64 (n * sz)) h' p R (u64_range _) EA ltac:(lia)) as (_ & HB & _).
  pose proof (pl_xs c PL). pose proof (pl_top c PL). pose proof (pl_base c PL). lia.
Qed.
