(** Every block starts at the start of the area plus a multiple of 16 when all requests are
    multiples of 16. *)
From Verif Require Export HeapAlignSpec HeapPoolProofs.

Section Align.
  Variable c : cfg.
  Hypothesis PL : placed c.
  Hypothesis RM : roomy c.
  Notation s0 := (area_start c).
  Notation e0 := (area_end c).

  Lemma needed_by n : n mod 16 = 0 -> needed n = n + 16.
  Proof. unfold needed. lia. Qed.

  (** The lowest free window starts at the area's start or where a block ends. *)
  Lemma lowest_from l a n : 0 < needed n -> (forall b, In b l -> 0 < hd_fp b) ->
    free_window c l a n -> (forall x, free_window c l x n -> a <= x) ->
    a = s0 \/ exists b, In b l /\ region_start b + hd_fp b = a.
  Proof.
    intros NP FP (L & U & D) M. destruct (Z.eq_dec a s0) as [E|NE]; [left; exact E|right].
    destruct (Exists_dec (fun b => region_start b + hd_fp b = a) l) as [X|X]; [intros b; apply Z.eq_dec|apply Exists_exists in X; exact X|].
    exfalso. assert (W : free_window c l (a - 1) n).
    { split; [lia|]. split; [lia|]. intros b B. specialize (D b B). pose proof (FP b B) as F. unfold disjoint in *.
      assert (region_start b + hd_fp b <> a) by (intros E; apply X, Exists_exists; eauto). lia. }
    specialize (M _ W). lia.
  Qed.

  Definition step16 (b : held) : Prop :=
    0 < hd_fp b /\ (region_start b - s0) mod 16 = 0 /\
    ((region_start b + hd_fp b - s0) mod 16 = 0 \/ region_start b + hd_fp b = e0).

  Lemma alloc16 h l m h' r : reachable c h l -> Forall step16 l -> is_size m -> m mod 16 = 0 -> allocate c h m = Ok (h', r) -> r <> 0 ->
    step16 (Held r m (free_heap_size h - free_heap_size h')).
  Proof.
    intros R F MS M16 A NZ. rewrite Forall_forall in F.
    pose proof (needed_by m M16) as EN. destruct (first_fit c PL RM h l m h' r R MS A) as [F1 F2]. destruct (F2 NZ) as [W M]. clear F2.
    destruct (proj1 F1 NZ) as (MP & _ & _).
    pose proof (footprint c PL RM h l m h' r R MS A NZ) as FP. cbv zeta in FP.
    destruct (ceiling_is c l (r - 16)) as (CE & CT & CM). set (e := ceiling c l (r - 16)) in *.
    pose proof W as (WL & WU & WD).
    assert (S1 : (r - 16 - s0) mod 16 = 0).
    { destruct (lowest_from l (r - 16) m ltac:(lia) (fun b B => proj1 (F b B)) W M) as [->|(b & B & E)]; [lia|].
      destruct (F b B) as (P1 & P2 & [P3|P3]); [rewrite <- E; lia|]. lia. }
    assert (AE : r - 16 + needed m <= e).
    { destruct CE as [->|(x & X & XA & <-)]; [exact WU|]. specialize (WD x X). pose proof (proj1 (F x X)). unfold disjoint in WD. lia. }
    assert (E16 : (e - s0) mod 16 = 0 \/ e = e0).
    { destruct CE as [->|(x & X & XA & <-)]; [right; reflexivity|left]. apply F, X. }
    unfold step16, region_start. cbn [hd_ptr hd_fp]. rewrite FP. destruct (Z.leb_spec (e - (r - 16) - needed m) 32) as [L|L].
    - split; [lia|]. split; [exact S1|]. replace (r - 16 + (e - (r - 16))) with e by ring. exact E16.
    - split; [lia|]. split; [exact S1|]. left. rewrite EN. lia.
  Qed.
  Lemma session16 h l evs h2 l2 : session c h l evs h2 l2 -> Forall (fun e => asks_by 16 (fst (fst e))) evs -> reachable c h l ->
    Forall step16 l -> Forall step16 l2.
  Proof.
    induction 1 as [|h l o h1 r evs h2 l2 P A S IH]; intros FA R GL; [exact GL|].
    inversion FA as [|x y AK FA']; subst. cbn [fst] in AK. apply IH; [exact FA'|exact (reachable_step c h l o h1 r R P A)|].
    destruct o as [m|num size|p| |bb|a v]; cbn [hold asks_by apply permitted] in *; try exact GL.
    - destruct (Z.eqb_spec r 0) as [Z0|Z0]; [exact GL|]. constructor; [|exact GL]. apply (alloc16 h l m h1 r R GL P AK A Z0).
    - destruct (Z.eqb_spec r 0) as [Z0|Z0]; [exact GL|]. destruct P as [P1 P2].
      destruct (calloc_as c h l num size h1 r R P1 P2 A Z0) as (MS & h3 & A3 & <-).
      constructor; [|exact GL]. apply (alloc16 h l (num * size) h3 r R GL MS AK A3 Z0).
    - rewrite Forall_forall in *. intros b B. apply filter_In in B. apply GL, B.
  Qed.
  Lemma always16 h l : always_by 16 c h l -> reachable c h l /\ Forall step16 l.
  Proof.
    intros (h0 & evs & E & S & FA). split; [exists h0, evs; auto|]. apply (session16 h0 [] evs h l S FA); [|constructor].
    exists h0, []. split; [exact E|constructor].
  Qed.
  Lemma next16 h l m h' r : always_by 16 c h l -> is_size m -> m mod 16 = 0 -> allocate c h m = Ok (h', r) -> r <> 0 -> r mod 16 = s0 mod 16.
  Proof.
    intros AL MS M A NZ. destruct (always16 h l AL) as [R F]. destruct (alloc16 h l m h' r R F MS M A NZ) as (_ & H & _).
    unfold region_start in H. cbn [hd_ptr] in H. lia.
  Qed.
  Lemma alloc_size sz n h h' r : 0 < sz -> 0 <= n -> n * sz < W64 -> alloc_allocate c h sz n = Ok (h', r) ->
    exists p, allocate c h (n * sz) = Ok (h', p) /\ r = if p =? 0 then None else Some p.
  Proof.
    intros S N L. unfold alloc_allocate. rewrite u64_id by (split; [apply Z.mul_nonneg_nonneg; lia|exact L]).
    destruct (allocate c h (n * sz)) as [[h1 q]| |]; cbn [bind]; try discriminate. intros E. exists q.
    destruct (q =? 0); cbn [negb] in E; injection E as <- <-; split; reflexivity.
  Qed.

  (** Blocks of another size shift what follows. *)
  Lemma shifted : 64 <= e0 - s0 -> exists h l b, reachable c h (b :: l) /\ hd_req b = 16 /\ hd_ptr b mod 16 = 8.
  Proof.
    intros L. assert (SS : is_size 8 /\ is_size 16) by (unfold is_size; change W64 with (2 ^ 64); lia).
    assert (S8 : s0 mod 16 = 0 \/ s0 mod 16 = 8) by (unfold area_start; lia).
    assert (N8 : needed 8 = 24) by reflexivity. assert (N16 : needed 16 = 32) by reflexivity.
    set (i := if s0 mod 16 =? 0 then 1%nat else 0%nat).
    assert (I : (i <= 1)%nat) by (unfold i; destruct (s0 mod 16 =? 0); lia).
    destruct (row_reach c PL RM 8 (proj1 SS) ltac:(lia) i) as (h & R); [rewrite N8; lia|].
    destruct (next_block c PL RM 8 ltac:(lia) i h 16 R (proj2 SS) ltac:(lia)) as (h' & R'); [rewrite N8, N16; lia|].
    eexists h', _, _. split; [exact R'|]. split; [reflexivity|]. cbn [hd_ptr]. rewrite N8. unfold i.
    destruct (Z.eqb_spec (s0 mod 16) 0); cbn [Z.of_nat]; lia.
  Qed.
  (** More than 16. *)
  Lemma only_step n h l h' r : nothing_but n c h l -> is_size n -> apply c h (Alloc n) = Ok (h', r) ->
    nothing_but n c h' (hold l (Alloc n) r (free_heap_size h) (free_heap_size h')).
  Proof.
    intros (h0 & evs & E & S & F) P A. exists h0, (evs ++ [(Alloc n, r, free_heap_size h')]). split; [exact E|]. split.
    - clear E F. induction S as [|h l o1 h1 r1 evs h2 l2 P1 A1 S IH]; cbn [app].
      + econstructor; [exact P|exact A|constructor].
      + econstructor; [exact P1|exact A1|]. apply IH; assumption.
    - apply Forall_app. split; [exact F|]. constructor; [reflexivity|constructor].
  Qed.
  Lemma only_reach n h l : nothing_but n c h l -> reachable c h l.
  Proof. intros (h0 & evs & E & S & _). exists h0, evs. auto. Qed.
  Lemma row_only sz i : is_size sz -> 0 < sz -> needed sz * Z.of_nat i + 40 <= e0 - s0 -> exists h, nothing_but sz c h (row c sz i).
  Proof.
    intros MS MP. pose proof (w_big sz MP) as [W1 W2].
    induction i as [|i IH]; intros L.
    - pose proof (placed_geo c PL RM) as G. destruct (construct_spec c G (g_size c G)) as (mm & E & _). eexists. eexists. exists []. split; [exact E|split; constructor].
    - assert (LI : needed sz * Z.of_nat i + needed sz + 40 <= e0 - s0) by lia.
      destruct IH as (h & R); [lia|]. destruct (next_apply c PL RM sz MP i h sz (only_reach _ _ _ R) MS MP) as (h' & r & A & E); [lia|].
      exists h'. pose proof (only_step sz _ _ _ _ R MS A) as R'. rewrite E in R'. cbn [row].
      destruct (Z.leb_spec (e0 - s0 - needed sz * Z.of_nat i - needed sz) 32); [lia|]. exact R'.
  Qed.
  Lemma shifted_more a sz : 0 < a -> a mod 32 = 0 -> 0 < sz -> sz mod a = 0 -> 2 * (sz + 16) <= e0 - s0 ->
    exists h l b, nothing_but sz c h (b :: l) /\ hd_req b = sz /\ hd_ptr b mod a <> 0.
  Proof.
    intros AP A32 SP SA L. pose proof (area_mod c PL RM) as (_ & B0 & B1 & B2).
    assert (SS : is_size sz) by (unfold is_size; change W64 with (2 ^ 64); lia).
    assert (S32 : sz mod 32 = 0).
    { apply Z.mod_divide in SA; [|lia]. apply Z.mod_divide in A32; [|lia]. destruct SA as [k ->]. destruct A32 as [j ->].
      replace (k * (j * 32)) with ((k * j) * 32) by ring. apply Z.mod_mul. lia. }
    assert (S16 : sz mod 16 = 0) by lia.
    pose proof (needed_by sz S16) as EN.
    set (i := if (s0 + 16) mod a =? 0 then 1%nat else 0%nat).
    assert (I : (i <= 1)%nat) by (unfold i; destruct ((s0 + 16) mod a =? 0); lia).
    destruct (row_only sz i SS SP) as (h & R).
    { rewrite EN. unfold i. destruct ((s0 + 16) mod a =? 0); cbn [Z.of_nat]; lia. }
    destruct (next_apply c PL RM sz SP i h sz (only_reach _ _ _ R) SS SP) as (h' & r & A & E').
    { rewrite EN. unfold i. destruct ((s0 + 16) mod a =? 0); cbn [Z.of_nat]; lia. }
    pose proof (only_step sz _ _ _ _ R SS A) as R'. rewrite E' in R'. clear E' A.
    eexists h', _, _. split; [exact R'|]. split; [reflexivity|].
    cbn [hd_ptr]. rewrite EN. unfold i. destruct (Z.eqb_spec ((s0 + 16) mod a) 0) as [E|E]; cbn [Z.of_nat].
    - intros H. replace (s0 + (sz + 16) * Z.pos (Pos.of_succ_nat 0) + 16) with ((s0 + 16) + (sz + 16)) in H by (cbn; lia).
      assert (H2 : (sz + 16) mod a = 0) by (rewrite Z.add_mod, E, Z.add_0_l, Z.mod_mod in H by lia; exact H).
      assert (H3 : 16 mod a = 0) by (rewrite Z.add_mod, SA, Z.add_0_l, Z.mod_mod in H2 by lia; exact H2).
      assert (32 <= a) by lia. rewrite Z.mod_small in H3 by lia. lia.
    - rewrite Z.mul_0_r, Z.add_0_r. exact E.
  Qed.
End Align.
