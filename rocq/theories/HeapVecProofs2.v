From Verif Require Export HeapVecProofs.

Section Vec.
  Variable c : cfg.
  Variable sz : Z.
  Hypothesis PL : placed c.
  Hypothesis RM : roomy c.
  Hypothesis SP : 0 < sz.
  Notation vinv := (vinv c sz).
  Notation vec_ok := (vec_ok sz).

  Lemma reach_nodup h l : reachable c h l -> NoDup (map hd_ptr l).
  Proof. intros R. exact (inv_nodup c PL RM h l (inv_reachable c h l (placed_geo c PL RM) R)). Qed.
  Lemma reach_nonzero h l b : reachable c h l -> In b l -> hd_ptr b <> 0.
  Proof.
    intros R B. pose proof (held_range c PL RM h l b (inv_reachable c h l (placed_geo c PL RM) R) B). pose proof (pl_base c PL). unfold area_start in *. lia.
  Qed.
  Lemma same_block h l b1 b2 : reachable c h l -> In b1 l -> In b2 l -> hd_ptr b1 = hd_ptr b2 -> b1 = b2.
  Proof.
    intros R B1 B2 E. pose proof (reach_nodup h l R) as ND. clear R. induction l as [|b l IH]; [destruct B1|].
    cbn in ND. inversion ND as [|? ? N1 N2]; subst. destruct B1 as [<-|B1], B2 as [<-|B2]; auto.
    - destruct N1. rewrite E. apply in_map, B2.
    - destruct N1. rewrite <- E. apply in_map, B1.
  Qed.
  Lemma blocks_apart h l b1 b2 : reachable c h l -> In b1 l -> In b2 l -> hd_ptr b1 <> hd_ptr b2 ->
    disjoint (hd_ptr b1) (hd_req b1) (hd_ptr b2) (hd_req b2).
  Proof.
    intros R B1 B2 NE. pose proof (inv_reachable c h l (placed_geo c PL RM) R) as I.
    pose proof (held_disjoint c h l b1 b2 I B1 B2 NE). pose proof (held_range c PL RM h l b1 I B1). pose proof (held_range c PL RM h l b2 I B2).
    unfold disjoint in *. lia.
  Qed.

  Lemma vec_alloc h l n : reachable c h l -> 0 < n -> n * sz < 2 ^ 63 ->
    exists h' r, alloc_allocate c h sz n = Ok (h', r) /\
    match r with
    | None => reachable c h' l /\ unchanged h h' /\ ~ exists a, free_window c l a (n * sz)
    | Some p => p <> 0 /\ (exists a, free_window c l a (n * sz)) /\ ~ In p (map hd_ptr l) /\
        (exists fp, reachable c h' (Held p (n * sz) fp :: l)) /\
        (forall b, In b l -> disjoint p (n * sz) (hd_ptr b) (hd_req b)) /\
        (forall b x, In b l -> hd_ptr b <= x < hd_ptr b + hd_req b -> h_mem h' x = h_mem h x)
    end.
  Proof.
    intros R N U. assert (IS : is_size (n * sz)) by (unfold is_size; change W64 with (2 ^ 64); nia).
    assert (EU : u64 (n * sz) = n * sz) by (apply Z.mod_small; exact IS).
    assert (NW : needed (n * sz) < W64) by (unfold needed; change W64 with (2 ^ 64); lia).
    destruct (calls_defined c PL RM h l (Alloc (n * sz)) R IS) as (h' & r & A).
    pose proof (reachable_step c h l (Alloc (n * sz)) h' r R IS A) as R'.
    pose proof (keep_bytes c PL RM h l (Alloc (n * sz)) h' r) as KB.
    assert (A' : allocate c h (n * sz) = Ok (h', r)) by exact A.
    destruct (first_fit c PL RM h l (n * sz) h' r R IS A') as [FF _].
    unfold alloc_allocate. rewrite EU, A'. cbn [bind]. cbn [hold] in R', KB. destruct (Z.eqb_spec r 0) as [Z0|NZ]; cbn [negb].
    - exists h', None. split; [reflexivity|]. split; [exact R'|].
      destruct (alloc_fail c PL RM h l (n * sz) h' r R IS A') as [AF _]. split; [apply (AF Z0)|].
      intros W. apply FF in Z0; [exact Z0|]. split; [nia|]. split; [exact NW|exact W].
    - exists h', (Some r). split; [reflexivity|]. split; [exact NZ|].
      split; [destruct (proj1 FF NZ) as (_ & _ & W); exact W|].
      split; [pose proof (reach_nodup _ _ R') as ND; cbn in ND; inversion ND; assumption|].
      split; [eexists; exact R'|].
      split; [apply (alloc_block c PL RM h l (n * sz) h' r R IS A' NZ)|].
      intros b x B X. apply (KB b x R IS A eq_refl B); [right; exact B|exact X].
  Qed.

  Lemma vec_free h l b : reachable c h l -> In b l ->
    exists h', alloc_deallocate c h (hd_ptr b) = Ok h' /\ reachable c h' (filter (fun x => negb (hd_ptr x =? hd_ptr b)) l) /\
    forall b' x, In b' l -> hd_ptr b' <> hd_ptr b -> hd_ptr b' <= x < hd_ptr b' + hd_req b' -> h_mem h' x = h_mem h x.
  Proof.
    intros R B. assert (P : permitted l (Free (hd_ptr b))) by (right; exists b; auto).
    destruct (calls_defined c PL RM h l (Free (hd_ptr b)) R P) as (h' & r & A).
    pose proof (reachable_step c h l _ h' r R P A) as R'. cbn [hold] in R'.
    assert (A' := A). cbn [apply] in A'. unfold alloc_deallocate. destruct (deallocate c h (hd_ptr b)) as [h1| |] eqn:E; [|discriminate|discriminate].
    cbn [bind] in A'. injection A' as <- <-. exists h1. split; [reflexivity|]. split; [exact R'|].
    intros b' x B' NE X. apply (keep_bytes c PL RM h l (Free (hd_ptr b)) h1 0 b' x R P A eq_refl B'); [|exact X].
    cbn [hold]. apply filter_In. split; [exact B'|]. destruct (Z.eqb_spec (hd_ptr b') (hd_ptr b)); [contradiction|reflexivity].
  Qed.

  Lemma cap_bytes v h l lo : vec_ok h l lo v -> 0 <= ve_size v /\ (ve_size v = 0 -> contents sz h v = []).
  Proof.
    intros [_ [-> | H]]; [cbn; auto; split; [lia|reflexivity]|]. split; [lia|]. intros E. unfold contents. rewrite E. reflexivity.
  Qed.

  (** Replacing one vector. *)
  Lemma vinv_set w l lo i v h' l' v' : vinv w l lo -> nth_error (vh_vecs w) i = Some v ->
    reachable c h' l' ->
    (forall b, In b l -> hd_ptr b <> ve_data v -> In b l') ->
    (forall b, In b l' -> hd_ptr b = ve_data v' \/ (In b l /\ hd_ptr b <> ve_data v)) ->
    (forall b x, In b l -> hd_ptr b <> ve_data v -> hd_ptr b <= x < hd_ptr b + hd_req b -> h_mem h' x = h_mem (vh_heap w) x) ->
    vec_ok h' l' lo v' ->
    (ve_data v' = ve_data v \/ ~ In (ve_data v') (map hd_ptr l)) ->
    vinv (VH h' (vput (vh_vecs w) i v')) l' lo /\
    all_contents sz (VH h' (vput (vh_vecs w) i v')) = update (all_contents sz w) i (contents sz h' v') /\
    (forall b x, In b lo -> hd_ptr b <= x < hd_ptr b + hd_req b -> h_mem h' x = h_mem (vh_heap w) x).
  Proof.
    intros [VR VO VV VA VAL] EI R' K1 K2 KB OK' ND.
    assert (IL : (i < length (vh_vecs w))%nat) by (apply nth_error_Some; congruence).
    assert (LN : forall b, In b lo -> hd_ptr b <> ve_data v).
    { intros b B E. destruct (VV i v EI) as [_ [-> | H]].
      - cbn in E. exact (reach_nonzero _ _ b VR (VO b B) E).
      - destruct H as (_ & _ & _ & _ & NI & _). apply NI. rewrite <- E. apply in_map, B. }
    assert (OB : forall j u, j <> i -> nth_error (vh_vecs w) j = Some u -> u <> empty_vec ->
      exists b, In b l /\ hd_ptr b = ve_data u /\ hd_req b = ve_cap u * sz /\ hd_ptr b <> ve_data v /\ 0 <= ve_size u <= ve_cap u).
    { intros j u NE EJ NU. destruct (VV j u EJ) as [_ [-> | H]]; [congruence|]. destruct H as (HS & _ & _ & DZ & _ & b & B & BP & BQ).
      exists b. repeat (split; [assumption|]). split; [|exact HS]. rewrite BP. exact (VA j i u v EJ EI NE DZ). }
    assert (CO : forall j u, j <> i -> nth_error (vh_vecs w) j = Some u -> contents sz h' u = contents sz (vh_heap w) u).
    { intros j u NE EJ. destruct (VV j u EJ) as [_ [-> | H]]; [reflexivity|].
      destruct (OB j u NE EJ) as (b & B & BP & BQ & BN & HS). { intros ->. destruct H as (_ & H & _). cbn in H. lia. }
      apply contents_ext; [exact SP|reflexivity|]. intros x X. apply (KB b); [exact B|exact BN|]. rewrite BP, BQ. nia. }
    split; [|split].
    - constructor; cbn [vh_heap vh_vecs].
      + exact R'.
      + intros b B. apply K1; [apply VO, B|apply LN, B].
      + intros j u EJ. rewrite vput_nth in EJ by exact IL. destruct (Nat.eqb_spec j i) as [->|NE]; [injection EJ as <-; exact OK'|].
        pose proof (VV j u EJ) as [F OKU]. split; [rewrite (CO j u NE EJ); exact F|].
        destruct OKU as [-> | H]; [left; reflexivity|right]. destruct (OB j u NE EJ) as (b & B & BP & BQ & BN & HS). { intros ->. destruct H as (_ & H & _). cbn in H. lia. }
        destruct H as (H1 & H2 & H3 & H4 & H5 & _). repeat (split; [assumption|]). exists b. split; [apply K1; assumption|auto].
      + intros j k a b EJ EK NE DZ. rewrite vput_nth in EJ, EK by exact IL.
        assert (X : forall j u, j <> i -> nth_error (vh_vecs w) j = Some u -> ve_data u <> 0 -> ve_data u <> ve_data v').
        { intros j0 u N0 E0 D0. destruct ND as [-> | ND]; [exact (VA j0 i u v E0 EI N0 D0)|].
          destruct (VV j0 u E0) as [_ [-> | H]]; [cbn in D0; lia|]. destruct H as (_ & _ & _ & _ & _ & bb & B & BP & _).
          intros E. apply ND. rewrite <- E, <- BP. apply in_map, B. }
        destruct (Nat.eqb_spec j i) as [->|NJ], (Nat.eqb_spec k i) as [->|NK]; try (exfalso; congruence).
        * injection EJ as <-. intros E. apply (X k b NK EK); [congruence|congruence].
        * injection EK as <-. exact (X j a NJ EJ DZ).
        * exact (VA j k a b EJ EK NE DZ).
      + intros b B. destruct (K2 b B) as [E|[BL NE]].
        * right. exists i, v'. rewrite vput_nth, Nat.eqb_refl by exact IL. auto.
        * destruct (VAL b BL) as [BO|(j & u & EJ & EP)]; [left; exact BO|right]. exists j, u. rewrite vput_nth by exact IL.
          destruct (Nat.eqb_spec j i) as [->|NJ]; [|auto]. rewrite EI in EJ. injection EJ as <-. contradiction.
    - unfold all_contents. cbn [vh_heap vh_vecs]. apply map_vput. exact CO.
    - intros b x B X. apply (KB b x (VO b B) (LN b B) X).
  Qed.

  Lemma update_same {A} (l : list A) i x : nth_error l i = Some x -> update l i x = l.
  Proof. revert i. induction l as [|y l IH]; intros [|i] H; cbn in *; try discriminate; [injection H as ->; reflexivity|f_equal; auto]. Qed.
  Lemma vput_same l i v : nth_error l i = Some v -> vput l i v = l.
  Proof. revert i. induction l as [|y l IH]; intros [|i] H; cbn in *; try discriminate; [injection H as ->; reflexivity|f_equal; auto]. Qed.
End Vec.
