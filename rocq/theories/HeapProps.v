(** Properties C01-C18, C98: static_heap and static_heap_allocator.
    Throughout: [placed c] is a real placement of the object in memory, [roomy c]
    says the buffer has room for one block besides the end marker, and
    [reachable c h l] says that heap [h] is the result of construction and some
    history of calls and writes by a well-behaved client who now holds [l]
    (HeapSpec.v). *)
From Verif Require Import HeapProofs7.

(** A history used in the examples: three blocks, the middle one freed. *)
Definition ops_ex : list op :=
  [OnFail true; Alloc 1; Alloc 40; Calloc 2 8; Free 65608; Write 65584 7].
(** Observations of a call's outcome. *)
Definition ret (x : res (heap * Z)) : option Z :=
  match x with Ok (_, r) => Some r | _ => None end.
Definition see {A} (f : heap -> A) (x : res (heap * Z)) : option A :=
  match x with Ok (h, _) => Some (f h) | _ => None end.
Example ops_ex_reachable : reachable c_ex (fst (state_after ops_ex)) (snd (state_after ops_ex)).
Proof. apply state_after_reachable. vm_compute. reflexivity. Qed.
Example ops_ex_table :
  snd (state_after ops_ex) = [Held 65664 16 32; Held 65584 1 24].
Proof. vm_compute. reflexivity. Qed.

(** ** C01 *)
Theorem C01_alloc_block_sound : forall c h l n h' r,
  placed c -> roomy c -> reachable c h l -> is_size n ->
  allocate c h n = Ok (h', r) -> r <> 0 ->
  r mod 8 = 0 /\ c_base c <= r /\ r + n <= c_base c + c_size c /\
  forall b, In b l -> disjoint r n (hd_ptr b) (hd_req b).
Proof. intros c h l n h' r PL RM. exact (alloc_block c PL RM h l n h' r). Qed.

Theorem C01_all_blocks_disjoint : forall c h l,
  placed c -> roomy c -> reachable c h l ->
  ForallOrdPairs (fun b1 b2 => disjoint (hd_ptr b1) (hd_req b1) (hd_ptr b2) (hd_req b2)) l.
Proof.
  intros c h l PL RM R. exact (inv_pairwise c PL RM h l (inv_reachable c h l (placed_geo c PL RM) R)).
Qed.

Example C01_ex : ret (allocate c_ex (fst (state_after ops_ex)) 20) = Some 65608.
Proof. vm_compute. reflexivity. Qed.

(** ** C02 *)
Theorem C02_calls_keep_live_bytes : forall c h l o h' r b x,
  placed c -> roomy c -> reachable c h l -> permitted l o -> apply c h o = Ok (h', r) ->
  is_write o = false ->
  In b l -> In b (hold l o r (free_heap_size h) (free_heap_size h')) ->
  hd_ptr b <= x < hd_ptr b + hd_req b -> h_mem h' x = h_mem h x.
Proof. intros c h l o h' r b x PL RM. exact (keep_bytes c PL RM h l o h' r b x). Qed.

Theorem C02_write_changes_one_byte : forall c h l a v h' r,
  apply c h (Write a v) = Ok (h', r) -> permitted l (Write a v) ->
  h_mem h' a = v /\ forall x, x <> a -> h_mem h' x = h_mem h x.
Proof. exact write_byte. Qed.

Example C02_ex :
  let x := apply c_ex (fst (state_after ops_ex)) (Free 65664) in
  ret x = Some 0 /\ In (Held 65584 1 24) (snd (state_after ops_ex)) /\
  h_mem (fst (state_after ops_ex)) 65584 = 7 /\ see (fun h => h_mem h 65584) x = Some 7.
Proof. vm_compute. tauto. Qed.

(** ** C03 *)
Theorem C03_accounting : forall c h l h0,
  placed c -> roomy c -> reachable c h l -> construct c = Ok h0 ->
  free_heap_size h + total_footprint l = free_heap_size h0 /\
  (forall b, In b l -> needed (hd_req b) <= hd_fp b <= needed (hd_req b) + 32).
Proof. intros c h l h0 PL RM. exact (accounting c PL RM h l h0). Qed.

(** What a request is charged, exactly. *)
Theorem C03_footprint : forall c h l n h' r,
  placed c -> roomy c -> reachable c h l -> is_size n -> allocate c h n = Ok (h', r) -> r <> 0 ->
  let room := ceiling c l (r - 16) - (r - 16) in
  free_heap_size h - free_heap_size h' = if room - needed n <=? 32 then room else needed n.
Proof. intros c h l n h' r PL RM. exact (footprint c PL RM h l n h' r). Qed.

(** In the gap of 56 bytes: 8 bytes need 24 and take the whole gap, 6 bytes behind the
    last block need 24 and take 24. *)
Example C03_footprint_ex :
  let h := fst (state_after ops_ex) in let l := snd (state_after ops_ex) in
  ceiling c_ex l 65592 - 65592 = 56 /\
  ret (allocate c_ex h 8) = Some 65608 /\ see free_heap_size (allocate c_ex h 8) = Some (184 - 56) /\
  let h2 := fst (state_after (ops_ex ++ [Alloc 8])) in
  free_heap_size h2 = 128 /\ see free_heap_size (allocate c_ex h2 6) = Some (128 - 24).
Proof. vm_compute. auto 10. Qed.

Example C03_ex : free_heap_size (fst (state_after ops_ex)) = 184 /\
  total_footprint (snd (state_after ops_ex)) = 56 /\ free_heap_size h_ex = 240.
Proof. vm_compute. auto. Qed.

(** ** C04 *)
Theorem C04_empty_heap_is_fresh : forall c h h0,
  placed c -> roomy c -> reachable c h [] -> construct c = Ok h0 ->
  free_heap_size h = free_heap_size h0 /\
  forall evs l', (exists h', session c h [] evs h' l') <-> (exists h', session c h0 [] evs h' l').
Proof.
  intros c h h0 PL RM R E.
  pose proof (twin_empty c PL RM h h0 R E) as TW.
  split.
  - destruct TW as (bl & R1 & R2 & _). unfold free_heap_size.
    rewrite (r_free _ _ _ R1), (r_free _ _ _ R2). reflexivity.
  - intros evs l'. split; intros (h' & S).
    + destruct (twin_session c PL RM _ _ _ _ _ S _ TW) as (h2 & S' & _). exists h2. exact S'.
    + destruct (twin_session c PL RM _ _ _ _ _ S _ (twin_sym c _ _ _ TW)) as (h2 & S' & _). exists h2. exact S'.
Qed.

Definition ops_freeall : list op :=
  [Alloc 1; Alloc 40; Calloc 2 8; Write 65584 7; Free 65608; Free 65664; Free 65584].
Example C04_ex : reachable c_ex (fst (state_after ops_freeall)) [].
Proof.
  assert (E : snd (state_after ops_freeall) = []) by (vm_compute; reflexivity).
  rewrite <- E. apply state_after_reachable. vm_compute. reflexivity.
Qed.
(** The bytes of the emptied heap are not those of a fresh one. *)
Example C04_ex_residue :
  h_mem (fst (state_after ops_freeall)) 65584 = 7 /\ h_mem h_ex 65584 = 0.
Proof. vm_compute. auto. Qed.

(** ** C05 *)
Theorem C05_first_fit : forall c h l n h' r,
  placed c -> roomy c -> reachable c h l -> is_size n -> allocate c h n = Ok (h', r) ->
  (r <> 0 <-> 0 < n /\ needed n < W64 /\ exists a, free_window c l a n) /\
  (r <> 0 -> free_window c l (r - 16) n /\ forall a, free_window c l a n -> r - 16 <= a).
Proof. intros c h l n h' r PL RM. exact (first_fit c PL RM h l n h' r). Qed.

(** 20 bytes fit in the gap left by the freed block; 60 bytes do not and go
    behind the last block; 200 bytes fit nowhere. *)
Example C05_ex :
  let h := fst (state_after ops_ex) in
  ret (allocate c_ex h 20) = Some 65608 /\
  ret (allocate c_ex h 60) = Some 65696 /\
  ret (allocate c_ex h 200) = Some 0.
Proof. vm_compute. auto. Qed.

(** ** C06 *)
Theorem C06_failure_is_clean : forall c h l n h' r,
  placed c -> roomy c -> reachable c h l -> is_size n -> allocate c h n = Ok (h', r) ->
  (r = 0 -> unchanged h h' /\ h_fired h' = h_fired h + (if h_cb h then 1 else 0)) /\
  (r <> 0 -> h_fired h' = h_fired h /\ h_cb h' = h_cb h).
Proof. intros c h l n h' r PL RM. exact (alloc_fail c PL RM h l n h' r). Qed.

(** Over a whole history: exactly at the refused requests made while a callback is set,
    and at none of the others. *)
Theorem C06_callback_count : forall c h0 evs h l,
  placed c -> roomy c -> construct c = Ok h0 -> session c h0 [] evs h l ->
  h_fired h = alarms false evs.
Proof. intros c h0 evs h l PL RM E S. exact (proj2 (proj2 (counts c PL RM h0 evs h l E S))). Qed.

Definition ops_alarm : list op :=
  [Alloc 500; OnFail true; Alloc 500; Alloc 8; Calloc (2 ^ 33) (2 ^ 33); Calloc 100 100; OnFail false; Alloc 0].
Example C06_callback_count_ex : session c_ex h_ex [] (events_of ops_alarm) (fst (state_after ops_alarm)) (snd (state_after ops_alarm)) /\
  alarms false (events_of ops_alarm) = 2 /\ h_fired (fst (state_after ops_alarm)) = 2.
Proof. split; [apply state_after_session; vm_compute; reflexivity|]. vm_compute. auto. Qed.

Example C06_ex : ret (allocate c_ex (fst (state_after ops_ex)) 200) = Some 0 /\
  see h_fired (allocate c_ex (fst (state_after ops_ex)) 200) = Some 1.
Proof. vm_compute. auto. Qed.

(** ** C07 *)
Theorem C07_low_water_mark : forall c h0 evs h l,
  placed c -> roomy c -> construct c = Ok h0 -> session c h0 [] evs h l ->
  is_minimum (minimum_ever_free_heap_size h) (points [free_heap_size h0] evs).
Proof. intros c h0 evs h l PL RM. exact (low_water c PL RM h0 evs h l). Qed.

Definition ops_min : list op := [Alloc 100; Free 65584; ResetMin; Alloc 1; Free 65584].
Example C07_ex : session c_ex h_ex [] (events_of ops_min) (fst (state_after ops_min)) (snd (state_after ops_min)) /\
  points [free_heap_size h_ex] (events_of ops_min) = [240; 216; 240] /\
  minimum_ever_free_heap_size (fst (state_after ops_min)) = 216.
Proof.
  split; [apply state_after_session; vm_compute; reflexivity|]. vm_compute. auto.
Qed.

(** ** C08 *)
Theorem C08_callocate : forall c h l num size h' r,
  placed c -> roomy c -> reachable c h l -> is_size num -> is_size size ->
  callocate c h num size = Ok (h', r) ->
  (r <> 0 -> num * size < W64 /\ 0 < num * size /\
     (forall x, r <= x < r + num * size -> h_mem h' x = 0) /\
     r mod 8 = 0 /\ c_base c <= r /\ r + num * size <= c_base c + c_size c /\
     forall b, In b l -> disjoint r (num * size) (hd_ptr b) (hd_req b)) /\
  (W64 <= num * size -> r = 0 /\ unchanged h h' /\ h_fired h' = h_fired h) /\
  (r = 0 -> unchanged h h').
Proof. intros c h l num size h' r PL RM. exact (calloc_zeroed c PL RM h l num size h' r). Qed.

Theorem C08_callocate_succeeds_iff : forall c h l num size h' r,
  placed c -> roomy c -> reachable c h l -> is_size num -> is_size size ->
  callocate c h num size = Ok (h', r) ->
  (r <> 0 <-> 0 < num * size < W64 /\ exists a, free_window c l a (num * size)).
Proof. intros c h l num size h' r PL RM. exact (calloc_iff c PL RM h l num size h' r). Qed.

(** The byte at 65610 held old client data before the call. *)
Example C08_ex :
  let h := fst (state_after [Alloc 1; Alloc 40; Write 65610 9; Free 65608]) in
  h_mem h 65610 = 9 /\
  ret (callocate c_ex h 5 4) = Some 65608 /\
  see (fun h' => h_mem h' 65610) (callocate c_ex h 5 4) = Some 0 /\
  ret (callocate c_ex h (2 ^ 32) (2 ^ 32)) = Some 0.
Proof. vm_compute. auto. Qed.

(** ** C09 *)
Theorem C09_huge_requests_refused : forall c h l n h' r,
  placed c -> roomy c -> reachable c h l -> is_size n -> allocate c h n = Ok (h', r) ->
  2 ^ 63 <= n + 16 \/ free_heap_size h < needed n ->
  r = 0 /\ unchanged h h'.
Proof. intros c h l n h' r PL RM. exact (big_refused c PL RM h l n h' r). Qed.

Example C09_ex : ret (allocate c_ex h_ex (2 ^ 64 - 9)) = Some 0.
Proof. vm_compute. reflexivity. Qed.

(** ** C10 *)
Theorem C10_no_undefined_access_and_termination : forall c h l o,
  placed c -> roomy c -> reachable c h l -> permitted l o ->
  exists h' r, apply c h o = Ok (h', r) /\
    reachable c h' (hold l o r (free_heap_size h) (free_heap_size h')).
Proof.
  intros c h l o PL RM R P. destruct (calls_defined c PL RM h l o R P) as (h' & r & A).
  exists h', r. split; [exact A|exact (reachable_step c h l o h' r R P A)].
Qed.

Example C10_ex : permitted (snd (state_after ops_ex)) (Free 65664).
Proof. right. exists (Held 65664 16 32). vm_compute. tauto. Qed.

(** ** C11 *)
Theorem C11_null_free_harmless : forall c h, deallocate c h 0 = Ok h.
Proof. exact deallocate_null. Qed.

(** Between the two frees: any permitted calls and writes none of which hands
    out a block (all results are 0). *)
Theorem C11_early_double_free_harmless : forall c h l b h1 evs h2 l2,
  placed c -> roomy c -> reachable c h l -> In b l -> deallocate c h (hd_ptr b) = Ok h1 ->
  session c h1 (hold l (Free (hd_ptr b)) 0 (free_heap_size h) (free_heap_size h1)) evs h2 l2 ->
  Forall (fun e => snd (fst e) = 0) evs ->
  deallocate c h2 (hd_ptr b) = Ok h2.
Proof. intros c h l b h1 evs h2 l2 PL RM. exact (double_free c PL RM h l b h1 evs h2 l2). Qed.

(** Free 65664, then 65584 (which merges everything), then 65664 again. *)
Example C11_ex :
  let h := fst (state_after (ops_ex ++ [Free 65664; Free 65584])) in
  runs (ops_ex ++ [Free 65664; Free 65584]) = true /\ free_heap_size h = 240 /\
  see free_heap_size (apply c_ex h (Free 65664)) = Some 240.
Proof. vm_compute. auto. Qed.

(** ** C12 (violated by the code) *)
Theorem C12_stale_free_refuted :
  exists c h0 evs h l p h',
    placed c /\ roomy c /\ construct c = Ok h0 /\ session c h0 [] evs h l /\
    (exists n f, In (Alloc n, p, f) evs) /\ ~ In p (map hd_ptr l) /\
    deallocate c h p = Ok h' /\ free_heap_size h' <> free_heap_size h.
Proof. exact stale_free_not_harmless. Qed.

(** ** C13 *)
Theorem C13_construction : forall c,
  placed c -> roomy c ->
  exists h, construct c = Ok h /\
    free_heap_size h = area_end c - area_start c /\
    minimum_ever_free_heap_size h = area_end c - area_start c /\
    h_allocs h = 0 /\ h_frees h = 0 /\
    (24 <= area_end c - area_start c ->
     exists h', allocate c h (area_end c - area_start c - 16) = Ok (h', area_start c + 16) /\
                free_heap_size h' = 0).
Proof. exact construct_whole. Qed.

(** Sizes with room for the end marker but no block: defined, and useless. *)
Theorem C13_tiny_buffer_refuses_all : forall c h n,
  placed c -> ~ roomy c -> construct c = Ok h -> is_size n -> allocate c h n = Ok (h, 0).
Proof. intros c h n PL. exact (tiny_refuses c PL h n). Qed.

Example C13_ex : area_start {| c_size := 100; c_base := 65569; c_xs := 65672 |} = 65576 /\
  area_end {| c_size := 100; c_base := 65569; c_xs := 65672 |} = 65648.
Proof. vm_compute. auto. Qed.

(** ** C14 (violated by the code) *)
Theorem C14_small_size_refuted : exists c, placed c /\ construct c = UB.
Proof.
  exists {| c_size := 8; c_base := 65568; c_xs := 65576 |}.
  split; [constructor; vm_compute; intuition congruence|vm_compute; reflexivity].
Qed.

Theorem C14_exactly_when_unsafe : forall c,
  placed c -> (construct c = UB <-> area_end c < c_base c).
Proof. exact construct_iff. Qed.

(** ** C15 *)
Theorem C15_counters : forall c h l,
  placed c -> roomy c -> reachable c h l ->
  (h_allocs h - h_frees h) mod W64 = Z.of_nat (length l) mod W64.
Proof. intros c h l PL RM. exact (counters c PL RM h l). Qed.

Theorem C15_counts : forall c h0 evs h l,
  placed c -> roomy c -> construct c = Ok h0 -> session c h0 [] evs h l ->
  h_allocs h = Z.of_nat (length (filter handed_out evs)) mod W64 /\
  h_frees h = Z.of_nat (length (filter given_back evs)) mod W64.
Proof.
  intros c h0 evs h l PL RM E S. destruct (counts c PL RM h0 evs h l E S) as (A & B & _). exact (conj A B).
Qed.

Example C15_counts_ex :
  length (filter handed_out (events_of ops_ex)) = 3%nat /\ length (filter given_back (events_of ops_ex)) = 1%nat.
Proof. vm_compute. auto. Qed.

Example C15_ex : h_allocs (fst (state_after ops_ex)) = 3 /\ h_frees (fst (state_after ops_ex)) = 1.
Proof. vm_compute. auto. Qed.

(** ** C16 *)
Theorem C16_allocator_allocate : forall c h l sz n,
  placed c -> roomy c -> reachable c h l -> 0 < sz -> 0 <= n -> n * sz < W64 ->
  exists h' r, alloc_allocate c h sz n = Ok (h', r) /\
  match r with
  | Some p => p <> 0 /\ p mod 8 = 0 /\ c_base c <= p /\ p + n * sz <= c_base c + c_size c /\
              (forall b, In b l -> disjoint p (n * sz) (hd_ptr b) (hd_req b)) /\
              reachable c h' (Held p (n * sz) (free_heap_size h - free_heap_size h') :: l)
  | None => unchanged h h' /\ reachable c h' l
  end.
Proof. exact allocator_alloc. Qed.

Example C16_ex :
  match alloc_allocate c_ex (fst (state_after ops_ex)) 4 5 with Ok (_, r) => Some r | _ => None end
  = Some (Some 65608).
Proof. vm_compute. reflexivity. Qed.

(** ** C17 (violated by the code) *)
Theorem C17_allocator_overflow_refuted :
  exists c h l n sz h' p,
    placed c /\ roomy c /\ reachable c h l /\ 0 <= n < W64 /\ 0 < sz /\
    alloc_allocate c h sz n = Ok (h', Some p) /\ c_base c + c_size c < p + n * sz.
Proof. exact allocator_wraps. Qed.

Theorem C17_wrapped_success_is_short : forall c h l n sz h' p,
  placed c -> roomy c -> reachable c h l -> 0 <= n < W64 -> 0 < sz -> W64 <= n * sz ->
  alloc_allocate c h sz n = Ok (h', Some p) -> c_base c + c_size c < p + n * sz.
Proof. exact wrapped_success. Qed.

(** ** C18 (violated by the code) *)
Theorem C18_allocator_equality_refuted :
  exists x a, a <> al_self x /\ al_manager (allocator_copy a x) = al_manager x /\
    allocator_eqb (allocator_copy a x) x = false.
Proof. exists {| al_self := 1000; al_manager := 5000 |}, 2000. vm_compute. intuition congruence. Qed.

(** What == really decides: being the same object. *)
Theorem C18_allocator_equality_is_identity : forall x y,
  (allocator_eqb x y = true <-> al_self x = al_self y) /\
  (allocator_neqb x y = true <-> al_self x <> al_self y).
Proof.
  intros x y. unfold allocator_neqb, allocator_eqb.
  destruct (Z.eqb_spec (al_self x) (al_self y)); cbn [negb]; intuition congruence.
Qed.

(** ** C98 *)
Theorem C98_statistics : forall c h l,
  placed c -> roomy c -> reachable c h l ->
  exists st gs, v_port_get_heap_stats c h = Ok st /\
    NoDup gs /\ (forall a n, In (a, n) gs <-> gap c l a n) /\
    st_blocks st = Z.of_nat (length gs) /\
    st_largest st = fold_right Z.max 0 (map snd gs) /\
    st_smallest st = fold_right Z.min 0xffffffff (map snd gs) /\
    st_available st = free_heap_size h /\ free_heap_size h = fold_right Z.add 0 (map snd gs) /\
    st_minimum st = minimum_ever_free_heap_size h /\
    st_allocs st = h_allocs h /\ st_frees st = h_frees h.
Proof. intros c h l PL RM. exact (stats c PL RM h l). Qed.

(** The largest block decides what can be allocated. *)
Theorem C98_largest_decides : forall c h l n h' r st,
  placed c -> roomy c -> reachable c h l -> is_size n -> 0 < n -> allocate c h n = Ok (h', r) ->
  v_port_get_heap_stats c h = Ok st -> (r <> 0 <-> needed n <= st_largest st).
Proof. intros c h l n h' r st PL RM. exact (alloc_iff_largest c PL RM h l n h' r st). Qed.

(** With no free block left the smallest one is reported as 4294967295 bytes. *)
Theorem C98_no_block_smallest : forall c h l st,
  placed c -> roomy c -> reachable c h l -> v_port_get_heap_stats c h = Ok st -> free_heap_size h = 0 ->
  st_blocks st = 0 /\ st_largest st = 0 /\ st_smallest st = 4294967295.
Proof.
  intros c h l st PL RM R ST F. destruct (stats c PL RM h l R) as (st' & gs & ST' & _ & GS & B & L & S & _ & FS & _).
  rewrite ST in ST'. injection ST' as <-.
  assert (X : gs = []).
  { destruct gs as [|[a n] gs]; [reflexivity|exfalso]. rewrite F in FS. cbn [map snd fold_right] in FS.
    assert (P : forall x, In x ((a, n) :: gs) -> 0 < snd x).
    { intros [y z] I. apply GS in I. exact (proj1 I). }
    assert (Q : forall k, (forall x, In x k -> 0 < snd x) -> 0 <= fold_right Z.add 0 (map (@snd Z Z) k)).
    { induction k as [|x k IH]; cbn [map fold_right]; intros Y; [lia|].
      pose proof (Y x (or_introl eq_refl)). specialize (IH (fun z Z => Y z (or_intror Z))). lia. }
    specialize (Q gs (fun x I => P x (or_intror I))). specialize (P (a, n) (or_introl eq_refl)). cbn in P. lia. }
  subst gs. auto.
Qed.

Example C98_ex :
  v_port_get_heap_stats c_ex (fst (state_after ops_ex)) = Ok (Stats 184 128 56 2 128 3 1) /\
  gap c_ex (snd (state_after ops_ex)) 65592 56.
Proof.
  split; [vm_compute; reflexivity|]. assert (E : snd (state_after ops_ex) = [Held 65664 16 32; Held 65584 1 24]) by (vm_compute; reflexivity).
  rewrite E. split; [lia|]. split; [|split; right].
  - intros b [<-|[<-|[]]]; vm_compute; intuition congruence.
  - exists (Held 65584 1 24). vm_compute. tauto.
  - exists (Held 65664 16 32). vm_compute. tauto.
Qed.
Example C98_full_ex :
  v_port_get_heap_stats c_ex (fst (state_after [Alloc 224])) = Ok (Stats 0 0 4294967295 0 0 1 0).
Proof. vm_compute. reflexivity. Qed.

Print Assumptions C01_alloc_block_sound.
Print Assumptions C01_all_blocks_disjoint.
Print Assumptions C02_calls_keep_live_bytes.
Print Assumptions C02_write_changes_one_byte.
Print Assumptions C03_accounting.
Print Assumptions C03_footprint.
Print Assumptions C04_empty_heap_is_fresh.
Print Assumptions C05_first_fit.
Print Assumptions C06_failure_is_clean.
Print Assumptions C06_callback_count.
Print Assumptions C07_low_water_mark.
Print Assumptions C08_callocate.
Print Assumptions C08_callocate_succeeds_iff.
Print Assumptions C09_huge_requests_refused.
Print Assumptions C10_no_undefined_access_and_termination.
Print Assumptions C11_null_free_harmless.
Print Assumptions C11_early_double_free_harmless.
Print Assumptions C12_stale_free_refuted.
Print Assumptions C13_construction.
Print Assumptions C13_tiny_buffer_refuses_all.
Print Assumptions C14_small_size_refuted.
Print Assumptions C14_exactly_when_unsafe.
Print Assumptions C15_counters.
Print Assumptions C15_counts.
Print Assumptions C16_allocator_allocate.
Print Assumptions C17_allocator_overflow_refuted.
Print Assumptions C17_wrapped_success_is_short.
Print Assumptions C18_allocator_equality_refuted.
Print Assumptions C18_allocator_equality_is_identity.
Print Assumptions C98_statistics.
Print Assumptions C98_largest_decides.
Print Assumptions C98_no_block_smallest.
