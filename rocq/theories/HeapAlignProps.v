(** C128: the alignment of what is stored in the heap. *)
From Verif Require Import HeapAlignProofs HeapProps.

(** Types whose alignment is 1, 2, 4 or 8: always aligned. *)
Theorem C128_up_to_eight : forall c h l sz n a h' p,
  placed c -> roomy c -> reachable c h l -> 0 < sz -> 0 <= n -> n * sz < W64 -> In a [1; 2; 4; 8] ->
  alloc_allocate c h sz n = Ok (h', Some p) -> p mod a = 0.
Proof.
  intros c h l sz n a h' p PL RM R S N L HA E.
  destruct (allocator_alloc c h l sz n PL RM R S N L) as (h1 & r & E1 & H). rewrite E in E1. injection E1 as <- <-.
  destruct H as (_ & M & _). cbn in HA. destruct HA as [<-|[<-|[<-|[<-|[]]]]]; lia.
Qed.
(** Types whose alignment is 16, nothing else in the heap: every object is where the buffer
    puts it, so all are aligned or none is. *)
Theorem C128_sixteen : forall c h l sz n h' p,
  placed c -> roomy c -> always_by 16 c h l -> 0 < sz -> sz mod 16 = 0 -> 0 <= n -> n * sz < W64 ->
  alloc_allocate c h sz n = Ok (h', Some p) -> p mod 16 = area_start c mod 16.
Proof.
  intros c h l sz n h' p PL RM R S S16 N L E.
  destruct (alloc_size c sz n h h' _ S N L E) as (q & A & EQ). destruct (Z.eqb_spec q 0) as [Z0|NZ]; [discriminate|]. injection EQ as ->.
  apply (next16 c PL RM h l (n * sz) h' q R); [split; [apply Z.mul_nonneg_nonneg; lia|exact L]| |exact A|exact NZ].
  rewrite Z.mul_mod, S16, Z.mul_0_r by lia. reflexivity.
Qed.
Theorem C128_sixteen_held : forall c h l b,
  placed c -> roomy c -> always_by 16 c h l -> In b l -> hd_ptr b mod 16 = area_start c mod 16.
Proof.
  intros c h l b PL RM R B. destruct (always16 c PL RM h l R) as [_ F]. rewrite Forall_forall in F. destruct (F b B) as (_ & H & _).
  unfold region_start in H. lia.
Qed.
(** With other requests in between this is lost, wherever the buffer is. *)
Theorem C128_sixteen_mixed_refuted : forall c,
  placed c -> roomy c -> 64 <= area_end c - area_start c ->
  exists h l b, reachable c h (b :: l) /\ hd_req b = 16 /\ hd_ptr b mod 16 = 8.
Proof. intros c PL RM. exact (shifted c PL RM). Qed.
(** Alignments of 32 and more cannot be had, even if only such objects are stored. *)
Theorem C128_more_refuted : forall c a sz,
  placed c -> roomy c -> 0 < a -> a mod 32 = 0 -> 0 < sz -> sz mod a = 0 -> 2 * needed sz <= area_end c - area_start c ->
  exists h l b, nothing_but sz c h (b :: l) /\ hd_req b = sz /\ hd_ptr b mod a <> 0.
Proof.
  intros c a sz PL RM A A32 S SA L. apply (shifted_more c PL RM a sz A A32 S SA). unfold needed in L. lia.
Qed.

(** A buffer whose area starts 16-aligned: objects of 16, 32 and 48 bytes, one freed and its
    place used again. *)
Definition ops_align : list op := [Alloc 16; Alloc 32; Calloc 3 16; Free (area_start c_ex + 48); Alloc 16].
Example C128_ex :
  placed c_ex /\ roomy c_ex /\ 64 <= area_end c_ex - area_start c_ex /\
  always_by 16 c_ex (fst (state_after ops_align)) (snd (state_after ops_align)) /\
  map (fun b => hd_ptr b mod 16) (snd (state_after ops_align)) = repeat (area_start c_ex mod 16) 3 /\
  2 * needed 64 <= area_end c_ex - area_start c_ex /\
  map (fun b => hd_ptr b mod 64) (snd (state_after [Alloc 64; Alloc 64])) <> [0; 0].
Proof.
  split; [apply c_ex_placed|]. split; [vm_compute; discriminate|]. split; [vm_compute; discriminate|]. split.
  - exists h_ex, (events_of ops_align). split; [apply h_ex_ok|]. split; [apply state_after_session; vm_compute; reflexivity|].
    vm_compute. repeat constructor.
  - split; [vm_compute; reflexivity|]. split; [vm_compute; discriminate|]. vm_compute. discriminate.
Qed.

Print Assumptions C128_up_to_eight.
Print Assumptions C128_sixteen.
Print Assumptions C128_sixteen_held.
Print Assumptions C128_sixteen_mixed_refuted.
Print Assumptions C128_more_refuted.
