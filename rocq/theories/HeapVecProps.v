(** C133: std::vectors whose elements live in a static heap. *)
From Verif Require Import HeapVecProofs6 HeapProps.

(** Nothing a correct program does with the vectors and the heap is undefined. *)
Theorem C133_defined : forall c sz w lo evs k,
  placed c -> roomy c -> 0 < sz < 2 ^ 63 -> vruns c sz w lo evs -> vpermitted sz w lo k ->
  exists w' r, vstep c sz w k = Ok (w', r).
Proof.
  intros c sz w lo evs k PL RM [SP SB] RU P. destruct (runs_step c sz PL RM SP SB w lo evs k RU P) as (l & _ & w' & r & _ & S & _). eauto.
Qed.

(** The vectors are lists: at any moment they contain exactly what the commands that did not throw
    put there, whatever the vectors and the other users of the heap did in between. *)
Theorem C133_vectors_are_lists : forall c sz w lo evs,
  placed c -> roomy c -> 0 < sz < 2 ^ 63 -> vruns c sz w lo evs -> all_contents sz w = on_lists_all evs.
Proof. intros c sz w lo evs PL RM [SP SB] RU. exact (proj2 (runs_inv c sz PL RM SP SB w lo evs RU)). Qed.

(** The bytes other users hold are theirs. *)
Theorem C133_others_kept : forall c sz w lo evs k w' r,
  placed c -> roomy c -> 0 < sz < 2 ^ 63 -> vruns c sz w lo evs -> vpermitted sz w lo k -> vstep c sz w k = Ok (w', r) ->
  is_other k = false -> forall b x, In b lo -> hd_ptr b <= x < hd_ptr b + hd_req b -> h_mem (vh_heap w') x = h_mem (vh_heap w) x.
Proof.
  intros c sz w lo evs k w' r PL RM [SP SB] RU P S IO. destruct (runs_step c sz PL RM SP SB w lo evs k RU P) as (l & _ & w1 & r1 & _ & S1 & _ & _ & _ & _ & _ & K).
  rewrite S in S1. injection S1 as <- <-. exact (K IO).
Qed.

(** std::bad_alloc is thrown exactly when a new block is needed and no stretch between the blocks
    in use is long enough for it. *)
Theorem C133_bad_alloc : forall c sz w lo evs l k w' r,
  placed c -> roomy c -> 0 < sz < 2 ^ 63 -> vruns c sz w lo evs -> in_use c sz w lo l -> vpermitted sz w lo k -> vstep c sz w k = Ok (w', r) ->
  (r = VBadAlloc <-> exists n, asks_for sz w k = Some n /\ ~ exists a, free_window c l a (n * sz)).
Proof.
  intros c sz w lo evs l k w' r PL RM [SP SB] RU U P S. destruct (runs_inv c sz PL RM SP SB w lo evs RU) as [[l0 VI0] _].
  pose proof (use_vinv c sz w l0 l lo VI0 U) as VI. destruct (fine_step c sz PL RM SP SB w l lo k VI P) as (w1 & r1 & _ & S1 & _ & _ & _ & B & _).
  rewrite S in S1. injection S1 as <- <-. exact B.
Qed.
Theorem C133_in_use : forall c sz w lo evs,
  placed c -> roomy c -> 0 < sz < 2 ^ 63 -> vruns c sz w lo evs -> exists l, in_use c sz w lo l.
Proof.
  intros c sz w lo evs PL RM [SP SB] RU. destruct (runs_inv c sz PL RM SP SB w lo evs RU) as [[l VI] _]. exists l. exact (vinv_use c sz PL RM w l lo VI).
Qed.
(** std::length_error exactly when max_size() would be exceeded. *)
Theorem C133_length_error : forall c sz w lo evs k w' r,
  placed c -> roomy c -> 0 < sz < 2 ^ 63 -> vruns c sz w lo evs -> vpermitted sz w lo k -> vstep c sz w k = Ok (w', r) ->
  (r = VLengthError <-> too_long sz w k).
Proof.
  intros c sz w lo evs k w' r PL RM [SP SB] RU P S. destruct (runs_step c sz PL RM SP SB w lo evs k RU P) as (l & _ & w1 & r1 & _ & S1 & _ & _ & _ & _ & L & _).
  rewrite S in S1. injection S1 as <- <-. exact L.
Qed.
(** A command that throws changes nothing: not the vectors, not the heap, not a byte. *)
Theorem C133_throw_changes_nothing : forall c sz w lo evs k w' r,
  placed c -> roomy c -> 0 < sz < 2 ^ 63 -> vruns c sz w lo evs -> vpermitted sz w lo k -> vstep c sz w k = Ok (w', r) -> threw r = true ->
  vh_vecs w' = vh_vecs w /\ unchanged (vh_heap w) (vh_heap w').
Proof.
  intros c sz w lo evs k w' r PL RM [SP SB] RU P S T. destruct (runs_step c sz PL RM SP SB w lo evs k RU P) as (l & _ & w1 & r1 & _ & S1 & _ & _ & U & _).
  rewrite S in S1. injection S1 as <- <-. exact (U T).
Qed.

(** Pointers into a vector stay good: a command on something else leaves a vector exactly as it is,
    and a command on it that needs no new block leaves its elements where they are. *)
Theorem C133_elsewhere : forall c sz w k w' r j v,
  vstep c sz w k = Ok (w', r) -> target k <> Some j -> nth_error (vh_vecs w) j = Some v -> nth_error (vh_vecs w') j = Some v.
Proof. exact others_stay. Qed.
Theorem C133_stays : forall c sz w lo evs k w' r j v,
  placed c -> roomy c -> 0 < sz < 2 ^ 63 -> vruns c sz w lo evs -> vstep c sz w k = Ok (w', r) -> asks_for sz w k = None -> k <> VDrop j ->
  nth_error (vh_vecs w) j = Some v -> exists v', nth_error (vh_vecs w') j = Some v' /\ ve_data v' = ve_data v /\ ve_cap v' = ve_cap v.
Proof.
  intros c sz w lo evs k w' r j v PL RM [SP SB] RU. apply (keeps_block c sz w k w' r j v SP).
  intros i u E. pose proof (runs_sizes c sz PL RM SP SB w lo evs i u RU E). lia.
Qed.
(** Once reserve(n) has returned, pushes up to n elements cannot throw and move nothing. *)
Theorem C133_reserved : forall c sz w lo evs i n w' v xs,
  placed c -> roomy c -> 0 < sz < 2 ^ 63 -> vruns c sz w lo evs -> vpermitted sz w lo (VReserve i n) ->
  vstep c sz w (VReserve i n) = Ok (w', VDone) ->
  nth_error (vh_vecs w') i = Some v -> ve_size v + Z.of_nat (length xs) <= n -> Forall (is_elem sz) xs ->
  exists w2 v2, vexec c sz w' (map (VPush i) xs) = Ok (w2, map (fun _ => VDone) xs) /\
    nth_error (vh_vecs w2) i = Some v2 /\ ve_data v2 = ve_data v.
Proof.
  intros c sz w lo evs i n w' v xs PL RM [SP SB] RU P S E L F.
  destruct (reserve_room c sz w lo evs i n w' RU P S) as (v0 & v1 & E0 & E1 & _ & C1). rewrite E in E1. injection E1 as <-.
  pose proof (vr_step c sz w lo evs _ w' VDone RU P S) as RU1. cbn [vothers] in RU1.
  destruct (pushes_room c sz PL RM SP SB xs w' lo _ i v RU1 E) as (w2 & S2 & E2); [lia|exact F|]. exists w2. eexists. split; [exact S2|]. split; [exact E2|reflexivity].
Qed.

(** Destroying the vectors, at any moment, gives back everything they took. *)
Theorem C133_no_leak : forall c sz w lo evs h0,
  placed c -> roomy c -> 0 < sz < 2 ^ 63 -> vruns c sz w lo evs -> construct c = Ok h0 ->
  exists w', vexec c sz w (map VDrop (seq 0 (length (vh_vecs w)))) = Ok (w', repeat VDone (length (vh_vecs w))) /\
    free_heap_size (vh_heap w') + total_footprint lo = free_heap_size h0.
Proof.
  intros c sz w lo evs h0 PL RM [SP SB] RU E0.
  destruct (drops c sz PL RM SP SB (length (vh_vecs w)) w lo evs 0%nat RU) as (w' & evs' & S & RU' & F); [reflexivity|intros i v L; lia|].
  exists w'. split; [exact S|]. exact (vec_total c sz PL RM SP SB w' lo evs' h0 RU' E0 F).
Qed.

(** Two vectors of ints and another user in a heap with 240 usable bytes. *)
Definition int4 (n : Z) : elem := [n; 0; 0; 0].
Definition ks_ex : list vcmd :=
  [VNew; VNew; VPush 0 (int4 1); VOther (Alloc 8); VPush 1 (int4 9); VPush 0 (int4 2); VOther (Write 65608 77); VPush 0 (int4 3);
   VSet 0 1 (int4 5); VCopy 1 0; VPush 1 (int4 4); VPop 0; VReserve 0 40; VReserve 0 (2 ^ 62); VReserve 0 8; VPush 0 (int4 6)].
Definition run_ex (ks : list vcmd) := vcheck c_ex 4 (VH h_ex []) [] [] ks.
Definition out {A} (f : vheap * list held * list (vcmd * vret) -> A) (ks : list vcmd) : option A :=
  match run_ex ks with Some x => Some (f x) | None => None end.
Example C133_ex :
  out (fun x => all_contents 4 (fst (fst x))) ks_ex = Some [[int4 1; int4 5; int4 6]; [int4 1; int4 5; int4 3; int4 4]] /\
  out (fun x => map snd (snd x)) ks_ex =
    Some [VDone; VDone; VDone; VGot 65608; VDone; VDone; VGot 0; VDone; VDone; VDone; VDone; VDone; VBadAlloc; VLengthError; VDone; VDone] /\
  out (fun x => snd (fst x)) ks_ex = Some [Held 65608 8 24] /\
  out (fun x => h_mem (vh_heap (fst (fst x))) 65608) ks_ex = Some 77 /\
  out (fun x => free_heap_size (vh_heap (fst (fst x)))) ks_ex = Some 120 /\
  out (fun x => free_heap_size (vh_heap (fst (fst x)))) (ks_ex ++ [VDrop 0; VDrop 1]) = Some (240 - 24).
Proof. vm_compute. repeat split. Qed.
Example C133_ex_runs : exists w lo evs, vruns c_ex 4 w lo evs /\ length evs = 16%nat.
Proof.
  assert (H : out (fun x => length (snd x)) ks_ex = Some 16%nat) by (vm_compute; reflexivity). unfold out in H.
  destruct (run_ex ks_ex) as [x|] eqn:E; [|discriminate H]. injection H as H.
  exists (fst (fst x)), (snd (fst x)), (snd x). split; [|exact H].
  apply (vcheck_runs c_ex 4 ks_ex (VH h_ex []) [] [] x); [constructor; exact h_ex_ok|exact E].
Qed.

Print Assumptions C133_defined.
Print Assumptions C133_vectors_are_lists.
Print Assumptions C133_others_kept.
Print Assumptions C133_bad_alloc.
Print Assumptions C133_in_use.
Print Assumptions C133_length_error.
Print Assumptions C133_throw_changes_nothing.
Print Assumptions C133_elsewhere.
Print Assumptions C133_stays.
Print Assumptions C133_reserved.
Print Assumptions C133_no_leak.
