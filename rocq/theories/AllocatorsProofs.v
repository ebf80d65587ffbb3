(** Lemmas about several allocators. *)
From Verif Require Export AllocatorsSpec HeapProofs6.


Lemma filter_comm {A} (p q : A -> bool) l : filter p (filter q l) = filter q (filter p l).
Proof.
  induction l as [|x l IH]; [reflexivity|]. cbn. destruct (q x) eqn:Q, (p x) eqn:P; cbn; rewrite ?P, ?Q, IH; reflexivity.
Qed.
Lemma same_free m l t p : same_blocks m l t ->
  same_blocks m (filter (fun b => negb ((hl_heap b =? m)%nat && (hl_ptr b =? p))) l) (filter (fun b => negb (hd_ptr b =? p)) t).
Proof.
  unfold same_blocks. rewrite filter_comm.
  assert (F : forall k : list alive, (forall b, In b k -> hl_heap b = m) ->
    filter (fun b => negb ((hl_heap b =? m)%nat && (hl_ptr b =? p))) k = filter (fun b => negb (hl_ptr b =? p)) k).
  { induction k as [|b k IH]; intros H; [reflexivity|]. cbn. rewrite (H b (or_introl eq_refl)), Nat.eqb_refl. cbn.
    rewrite IH by (intros; apply H; right; assumption). reflexivity. }
  rewrite F.
  2:{ intros b H. apply filter_In in H. apply Nat.eqb_eq. apply H. }
  generalize (filter (fun b => (hl_heap b =? m)%nat) l). intros k. revert t. clear.
  induction k as [|b k IH]; intros [|x t] E; cbn in *; try discriminate; [reflexivity|].
  injection E as E1 E2 E3. rewrite E1. destruct (negb (hd_ptr x =? p)); cbn; [rewrite E1, E2; f_equal|]; apply IH, E3.
Qed.
Lemma same_other m l i p : m <> i ->
  filter (fun b => (hl_heap b =? m)%nat) (filter (fun b => negb ((hl_heap b =? i)%nat && (hl_ptr b =? p))) l) =
  filter (fun b => (hl_heap b =? m)%nat) l.
Proof.
  intros N. induction l as [|b l IH]; [reflexivity|]. cbn. destruct (hl_heap b =? m)%nat eqn:E.
  - apply Nat.eqb_eq in E. replace (hl_heap b =? i)%nat with false by (symmetry; apply Nat.eqb_neq; congruence).
    cbn. rewrite E, Nat.eqb_refl, IH. reflexivity.
  - destruct (negb _); cbn; rewrite ?E; exact IH.
Qed.
Lemma same_in m l t b : same_blocks m l t -> In b l -> hl_heap b = m ->
  exists x, In x t /\ hd_ptr x = hl_ptr b /\ hd_req x = hl_bytes b.
Proof.
  intros S H E. assert (I : In (hl_ptr b, hl_bytes b) (map (fun b => (hd_ptr b, hd_req b)) t)).
  { rewrite <- S. apply in_map_iff. exists b. split; [reflexivity|]. apply filter_In. split; [exact H|]. apply Nat.eqb_eq, E. }
  apply in_map_iff in I. destruct I as (x & I1 & I2). inversion I1. exists x. auto.
Qed.

Section S.
  Variable cs : nat -> cfg.
  Hypothesis PL : forall m, placed (cs m).
  Hypothesis RM : forall m, roomy (cs m).

  Definition sound (hs : nat -> heap) (os : list aobj) (l : list alive) : Prop :=
    (forall k o, nth_error os k = Some o -> 0 < ao_size o) /\
    forall m, exists t, reachable (cs m) (hs m) t /\ same_blocks m l t.

  (** A permitted call is defined; what it does. *)
  Lemma step_sound hs os l a : sound hs os l -> apermitted os l a ->
    exists hs' os' r, astep cs hs os a = Ok (hs', os', r) /\ sound hs' os' (ahold os l a r).
  Proof.
    intros (Z & S) P. destruct a as [m sz|k sz|k n|k p n]; cbn [apermitted] in P; cbn [astep].
    - do 3 eexists. split; [reflexivity|]. split; [|exact S]. intros j o H.
      destruct (Nat.lt_ge_cases j (length os)) as [L|L]; [rewrite nth_error_app1 in H by exact L; eauto|].
      rewrite nth_error_app2 in H by exact L. destruct (j - length os)%nat as [|[|]]; cbn in H; inversion H; subst; exact P.
    - destruct P as ((o & E) & P). rewrite E. do 3 eexists. split; [reflexivity|]. split; [|exact S]. intros j x H.
      destruct (Nat.lt_ge_cases j (length os)) as [L|L]; [rewrite nth_error_app1 in H by exact L; eauto|].
      rewrite nth_error_app2 in H by exact L. destruct (j - length os)%nat as [|[|]]; cbn in H; inversion H; subst; exact P.
    - destruct P as (o & E & N & W). rewrite E. destruct (S (ao_heap o)) as (t & R & SB).
      destruct (allocator_alloc (cs (ao_heap o)) (hs (ao_heap o)) t (ao_size o) n (PL _) (RM _) R (Z k o E) N W) as (h' & r & A & B).
      rewrite A. cbn [bind]. do 3 eexists. split; [reflexivity|]. split; [exact Z|]. intros m. unfold set_heap.
      destruct (Nat.eq_dec m (ao_heap o)) as [->|NE].
      + rewrite Nat.eqb_refl. cbn [ahold]. rewrite E. destruct r as [p|].
        * destruct B as (_ & _ & _ & _ & _ & R'). eexists. split; [exact R'|]. unfold same_blocks in *. cbn.
          rewrite Nat.eqb_refl. cbn. f_equal. exact SB.
        * destruct B as (_ & R'). exists t. split; [exact R'|exact SB].
      + replace (m =? ao_heap o)%nat with false by (symmetry; apply Nat.eqb_neq; exact NE). destruct (S m) as (u & RU & SU).
        exists u. split; [exact RU|]. cbn [ahold]. destruct r as [p|]; [|exact SU]. rewrite E. unfold same_blocks in *. cbn.
        replace (ao_heap o =? m)%nat with false by (symmetry; apply Nat.eqb_neq; congruence). exact SU.
    - destruct P as (o & E & P). rewrite E. destruct (S (ao_heap o)) as (t & R & SB).
      assert (PM : permitted t (Free p)).
      { destruct P as [->|(b & I & H1 & H2)]; [left; reflexivity|right]. destruct (same_in _ _ _ b SB I H1) as (x & I1 & I2 & _).
        exists x. split; [exact I1|congruence]. }
      destruct (calls_defined (cs (ao_heap o)) (PL _) (RM _) (hs (ao_heap o)) t (Free p) R PM) as (h' & r & A).
      pose proof (reachable_step _ _ _ _ _ _ R PM A) as R'. cbn [apply] in A. unfold alloc_deallocate.
      destruct (deallocate (cs (ao_heap o)) (hs (ao_heap o)) p) as [h1| |]; try discriminate. cbn [bind] in A. inversion A; subst h' r.
      cbn [bind]. do 3 eexists. split; [reflexivity|]. split; [exact Z|]. intros m. unfold set_heap. cbn [ahold]. rewrite E.
      destruct (Nat.eq_dec m (ao_heap o)) as [->|NE].
      + rewrite Nat.eqb_refl. eexists. split; [exact R'|]. cbn [hold]. apply same_free, SB.
      + replace (m =? ao_heap o)%nat with false by (symmetry; apply Nat.eqb_neq; exact NE). destruct (S m) as (u & RU & SU).
        exists u. split; [exact RU|]. unfold same_blocks in *. rewrite same_other by exact NE. exact SU.
  Qed.
  Lemma session_sound hs os l : asession cs hs os l -> sound hs os l.
  Proof.
    induction 1 as [hs C|hs os l a hs' os' r S IH P A].
    - split; [intros [|k] o; discriminate|]. intros m. exists []. split; [|reflexivity].
      exists (hs m), []. split; [apply C|constructor].
    - destruct (step_sound hs os l a IH P) as (h2 & o2 & r2 & A2 & S2). rewrite A in A2. inversion A2; subst. exact S2.
  Qed.

  Lemma block_inside m hs t b : reachable (cs m) (hs m) t -> In b t ->
    c_base (cs m) <= hd_ptr b /\ hd_ptr b + hd_req b <= c_base (cs m) + c_size (cs m).
  Proof.
    intros (h0 & evs & C & S). revert b.
    assert (G : forall h l evs h' l', session (cs m) h l evs h' l' -> reachable (cs m) h l ->
              (forall b, In b l -> c_base (cs m) <= hd_ptr b /\ hd_ptr b + hd_req b <= c_base (cs m) + c_size (cs m)) ->
              forall b, In b l' -> c_base (cs m) <= hd_ptr b /\ hd_ptr b + hd_req b <= c_base (cs m) + c_size (cs m)).
    { clear - PL RM. induction 1 as [h l|h l o h1 r evs h2 l2 P A S IH]; intros R H; [exact H|].
      apply IH; [exact (reachable_step _ _ _ _ _ _ R P A)|]. intros b I.
      destruct o as [n|num size|p| |x|a v]; cbn [hold] in I; try (apply H, I).
      - destruct (r =? 0) eqn:Z; [apply H, I|]. destruct I as [<-|I]; [|apply H, I]. apply Z.eqb_neq in Z.
        destruct (alloc_block _ (PL m) (RM m) h l n h1 r R P A Z) as (_ & A1 & A2 & _). auto.
      - destruct (r =? 0) eqn:Z; [apply H, I|]. destruct I as [<-|I]; [|apply H, I]. apply Z.eqb_neq in Z.
        destruct P as (P1 & P2). destruct (calloc_zeroed _ (PL m) (RM m) h l num size h1 r R P1 P2 A) as (Q & _).
        destruct (Q Z) as (_ & _ & _ & _ & A1 & A2 & _). auto.
      - apply filter_In in I. apply H, I. }
    apply (G h0 [] evs (hs m) t S); [exists h0, []; split; [exact C|constructor]|]. intros b [].
  Qed.

  (** Blocks of different heaps. *)
  Lemma cross hs os l b : apart cs -> asession cs hs os l -> In b l -> forall m p n, m <> hl_heap b ->
    c_base (cs m) <= p -> p + n <= c_base (cs m) + c_size (cs m) -> disjoint p n (hl_ptr b) (hl_bytes b).
  Proof.
    intros AP S I m p n NE P1 P2. destruct (session_sound _ _ _ S) as (_ & SO). destruct (SO (hl_heap b)) as (t & R & SB).
    destruct (same_in _ _ _ b SB I eq_refl) as (x & I1 & I2 & I3). pose proof (block_inside _ _ _ _ R I1) as (B1 & B2).
    destruct (AP m (hl_heap b) NE); unfold disjoint; lia.
  Qed.

  Lemma call_effect hs os l a : apart cs -> asession cs hs os l -> apermitted os l a ->
    exists hs' os' r, astep cs hs os a = Ok (hs', os', r) /\ asession cs hs' os' (ahold os l a r) /\
    match a with
    | AMake m sz => hs' = hs /\ r = AMade (length os) /\ os' = os ++ [AObj m sz]
    | AConvert k sz => exists o, nth_error os k = Some o /\ hs' = hs /\ r = AMade (length os) /\ os' = os ++ [AObj (ao_heap o) sz]
    | AAllocate k n => exists o, nth_error os k = Some o /\ os' = os /\ (forall m, m <> ao_heap o -> hs' m = hs m) /\
        allocate (cs (ao_heap o)) (hs (ao_heap o)) (n * ao_size o) =
          Ok (hs' (ao_heap o), match r with APtr p => p | _ => 0 end) /\
        match r with
        | APtr p => p <> 0 /\ p mod 8 = 0 /\ c_base (cs (ao_heap o)) <= p /\
                    p + n * ao_size o <= c_base (cs (ao_heap o)) + c_size (cs (ao_heap o)) /\
                    forall b, In b l -> disjoint p (n * ao_size o) (hl_ptr b) (hl_bytes b)
        | ABadAlloc => unchanged (hs (ao_heap o)) (hs' (ao_heap o))
        | _ => False
        end
    | ADeallocate k p n => exists o, nth_error os k = Some o /\ os' = os /\ r = ADone /\ (forall m, m <> ao_heap o -> hs' m = hs m) /\
        deallocate (cs (ao_heap o)) (hs (ao_heap o)) p = Ok (hs' (ao_heap o))
    end.
  Proof.
    intros AP S P. pose proof (session_sound _ _ _ S) as (Z & SO).
    destruct (step_sound hs os l a (session_sound _ _ _ S) P) as (hs' & os' & r & A & _). exists hs', os', r.
    split; [exact A|]. split; [econstructor; eassumption|].
    assert (OFF : forall i h m, m <> i -> set_heap hs i h m = hs m).
    { intros i h m NE. unfold set_heap. replace (m =? i)%nat with false by (symmetry; apply Nat.eqb_neq; exact NE). reflexivity. }
    destruct a as [m sz|k sz|k n|k p n]; cbn [astep apermitted] in A, P.
    - inversion A; auto.
    - destruct P as ((o & E) & _). rewrite E in A. exists o. inversion A; auto.
    - destruct P as (o & E & N & W). rewrite E in A. exists o. split; [exact E|].
      destruct (SO (ao_heap o)) as (t & R & SB).
      destruct (allocator_alloc (cs (ao_heap o)) (hs (ao_heap o)) t (ao_size o) n (PL _) (RM _) R (Z k o E) N W) as (h' & q & B & C).
      rewrite B in A. cbn [bind] in A. inversion A; subst hs' os' r. split; [reflexivity|]. split; [intros m NE; apply OFF, NE|].
      assert (NS : is_size (n * ao_size o)).
      { specialize (Z k o E). assert (0 <= n * ao_size o) by (apply Z.mul_nonneg_nonneg; lia). unfold is_size. lia. }
      assert (U : u64 (n * ao_size o) = n * ao_size o) by (apply Z.mod_small; exact NS).
      split.
      { unfold alloc_allocate in B. rewrite U in B. unfold set_heap. rewrite Nat.eqb_refl.
        destruct (allocate (cs (ao_heap o)) (hs (ao_heap o)) (n * ao_size o)) as [[h2 p]| |]; try discriminate. cbn [bind] in B.
        destruct (p =? 0) eqn:EZ; cbn [negb] in B; inversion B; [apply Z.eqb_eq in EZ; rewrite EZ|]; reflexivity. }
      destruct q as [p|].
      + destruct C as (C1 & C2 & C3 & C4 & C5 & _). split; [exact C1|]. split; [exact C2|]. split; [exact C3|]. split; [exact C4|].
        intros b I. destruct (Nat.eq_dec (hl_heap b) (ao_heap o)) as [EH|NE].
        * destruct (same_in _ _ _ b SB I EH) as (x & I1 & I2 & I3). rewrite <- I2, <- I3. apply C5, I1.
        * eapply (cross hs os l b AP S I (ao_heap o)); [congruence|exact C3|exact C4].
      + unfold set_heap. rewrite Nat.eqb_refl. apply C.
    - destruct P as (o & E & P). rewrite E in A. exists o. split; [exact E|].
      unfold alloc_deallocate in A.
      destruct (deallocate (cs (ao_heap o)) (hs (ao_heap o)) p) as [h1| |]; try discriminate. cbn [bind] in A. inversion A; subst.
      split; [reflexivity|]. split; [reflexivity|]. split; [intros m NE; apply OFF, NE|]. unfold set_heap. rewrite Nat.eqb_refl. reflexivity.
  Qed.

  Lemma bytes_kept hs os l a hs' os' r b x : asession cs hs os l -> apermitted os l a ->
    astep cs hs os a = Ok (hs', os', r) -> In b l -> In b (ahold os l a r) ->
    hl_ptr b <= x < hl_ptr b + hl_bytes b -> h_mem (hs' (hl_heap b)) x = h_mem (hs (hl_heap b)) x.
  Proof.
    intros S P A I I' B. pose proof (session_sound _ _ _ S) as (Z & SO).
    destruct a as [m sz|k sz|k n|k p n]; cbn [astep apermitted] in A, P.
    - inversion A; reflexivity.
    - destruct P as ((o & E) & _). rewrite E in A. inversion A; reflexivity.
    - destruct P as (o & E & N & W). rewrite E in A.
      destruct (alloc_allocate (cs (ao_heap o)) (hs (ao_heap o)) (ao_size o) n) as [[h1 q]| |] eqn:AA; try discriminate.
      cbn [bind] in A. inversion A; subst hs' os' r. unfold set_heap. destruct (hl_heap b =? ao_heap o)%nat eqn:EH; [|reflexivity].
      apply Nat.eqb_eq in EH. rewrite EH. destruct (SO (ao_heap o)) as (t & R & SB).
      destruct (same_in _ _ _ b SB I EH) as (y & I1 & I2 & I3). unfold alloc_allocate in AA.
      assert (NS : is_size (n * ao_size o)).
      { specialize (Z k o E). assert (0 <= n * ao_size o) by (apply Z.mul_nonneg_nonneg; lia). unfold is_size. lia. }
      assert (U : u64 (n * ao_size o) = n * ao_size o) by (apply Z.mod_small; exact NS). rewrite U in AA.
      destruct (allocate (cs (ao_heap o)) (hs (ao_heap o)) (n * ao_size o)) as [[h2 p]| |] eqn:AL; try discriminate. cbn [bind] in AA.
      assert (h2 = h1) by (destruct (negb (p =? 0)); inversion AA; reflexivity). subst h2.
      eapply (keep_bytes _ (PL _) (RM _) (hs (ao_heap o)) t (Alloc (n * ao_size o)) h1 p y x R NS); [exact AL|reflexivity|exact I1| |lia].
      cbn [hold]. destruct (p =? 0); [exact I1|right; exact I1].
    - destruct P as (o & E & P). rewrite E in A. cbn [ahold] in I'. rewrite E in I'.
      destruct (alloc_deallocate (cs (ao_heap o)) (hs (ao_heap o)) p) as [h1| |] eqn:AD; try discriminate. cbn [bind] in A. inversion A; subst hs' os' r.
      unfold set_heap. destruct (hl_heap b =? ao_heap o)%nat eqn:EH; [|reflexivity].
      apply Nat.eqb_eq in EH. rewrite EH. destruct (SO (ao_heap o)) as (t & R & SB).
      destruct (same_in _ _ _ b SB I EH) as (y & I1 & I2 & I3).
      assert (PM : permitted t (Free p)).
      { destruct P as [->|(c & J & H1 & H2)]; [left; reflexivity|right]. destruct (same_in _ _ _ c SB J H1) as (z & J1 & J2 & _).
        exists z. split; [exact J1|congruence]. }
      eapply (keep_bytes _ (PL _) (RM _) (hs (ao_heap o)) t (Free p) h1 0 y x R PM); [|reflexivity|exact I1| |lia].
      + cbn [apply]. unfold alloc_deallocate in AD. rewrite AD. reflexivity.
      + cbn [hold]. apply filter_In. split; [exact I1|]. apply filter_In in I'. destruct I' as (_ & I').
        rewrite EH, Nat.eqb_refl in I'. cbn in I'. rewrite I2. exact I'.
  Qed.
End S.
