From Verif Require Export HeapListProofs6 HeapVecProofs6.

(** ** an element stays *)
Lemma in_before p e s y : In y s -> In y (insert_before p e s).
Proof.
  induction s as [|z s IH]; cbn [insert_before]; [intros []|]. destruct (fst z =? p); cbn [In]; [auto|]. intros [<-|H]; auto.
Qed.
Lemma seqs_keep ss k r i s p x : nth_error ss i = Some s -> NoDup (map fst s) -> In (p, x) s -> ~ about i p s k ->
  exists s', nth_error (on_seqs ss k r) i = Some s' /\ In (p, x) s'.
Proof.
  intros ES ND IN NA. assert (IL : (i < length ss)%nat) by (apply nth_error_Some; congruence).
  assert (NTH : nth i ss [] = s) by (apply nth_error_nth; exact ES).
  assert (SAME : exists s', nth_error ss i = Some s' /\ In (p, x) s') by eauto.
  assert (UPD : forall j t, (j = i -> In (p, x) t) -> exists s', nth_error (update ss j t) i = Some s' /\ In (p, x) s').
  { intros j t H. destruct (Nat.lt_ge_cases j (length ss)) as [JL|JL].
    - rewrite HeapListProofs.update_nth by exact JL. destruct (Nat.eqb_spec i j) as [->|NE]; [eauto|exact SAME].
    - replace (update ss j t) with ss; [exact SAME|]. clear -JL. revert j JL. induction ss as [|y ss IH]; intros [|j] JL; cbn in *; try reflexivity; try lia. f_equal. apply IH. lia. }
  destruct k as [a|j|j q y|j y|j y|j q|j|j|j q y|j|o]; cbn [on_seqs about] in *; try exact SAME.
  - exists s. split; [|exact IN]. rewrite nth_error_app1 by exact IL. exact ES.
  - apply UPD. intros E. contradiction.
  - destruct r; try exact SAME. apply UPD. intros ->. rewrite NTH. apply in_before, IN.
  - destruct r; try exact SAME. apply UPD. intros ->. rewrite NTH. apply in_or_app. auto.
  - destruct r; try exact SAME. apply UPD. intros ->. rewrite NTH. right. exact IN.
  - apply UPD. intros ->. rewrite NTH. apply filter_In. split; [exact IN|]. cbn [fst]. destruct (Z.eqb_spec p q); [exfalso; apply NA; auto|reflexivity].
  - apply UPD. intros ->. rewrite NTH. assert (NE : s <> []) by (intros ->; destruct IN). destruct (exists_last NE) as (t & [q y] & ->).
    rewrite removelast_last. apply in_app_or in IN. destruct IN as [IN|[E|[]]]; [exact IN|]. injection E as -> ->. exfalso. apply NA. split; [reflexivity|eauto].
  - apply UPD. intros ->. rewrite NTH. destruct s as [|[q y] t]; [destruct IN|]. cbn [tl]. destruct IN as [E|IN]; [|exact IN]. injection E as -> ->. exfalso. apply NA. split; [reflexivity|eauto].
  - apply UPD. intros ->. rewrite NTH. apply in_map_iff. exists (p, x). split; [|exact IN]. cbn [fst]. destruct (Z.eqb_spec p q); [exfalso; apply NA; auto|reflexivity].
  - apply UPD. intros E. contradiction.
Qed.

(** ** a checked run, for the examples *)
Definition has_iterb (c : cfg) (sz : Z) (w : lheap) (i : nat) (p : Z) : bool :=
  match nth_error (lh_lists w) i with Some a => existsb (Z.eqb p) (map fst (forwards c sz w a)) | None => false end.
Lemma has_iterb_ok c sz w i p : has_iterb c sz w i p = true -> has_iter c sz w i p.
Proof.
  unfold has_iterb, has_iter. destruct (nth_error (lh_lists w) i) as [a|]; [|discriminate]. intros H. exists a. split; [reflexivity|].
  apply existsb_exists in H. destruct H as (q & Q & E). apply Z.eqb_eq in E. subst q. exact Q.
Qed.
Definition lpermittedb (c : cfg) (sz : Z) (w : lheap) (lo : list held) (k : lcmd) : bool :=
  let has i := (i <? length (lh_lists w))%nat in
  let some i := match nth_error (lh_lists w) i with Some a => match forwards c sz w a with e :: _ => true | [] => false end | None => false end in
  match k with
  | LNew a => (0 <? a) && (a + 24 <=? W64) && (a mod 8 =? 0) && ((a + 24 <=? c_base c) || (c_xs c + 16 <=? a)) &&
      forallb (fun o => (a + 24 <=? o) || (o + 24 <=? a)) (lh_lists w)
  | LDrop i | LClear i => has i
  | LInsert i p x => elemb sz x && (has_iterb c sz w i p || match nth_error (lh_lists w) i with Some a => a =? p | None => false end)
  | LPushBack i x | LPushFront i x => has i && elemb sz x
  | LErase i p => has_iterb c sz w i p
  | LPopBack i | LPopFront i => some i
  | LSet i p x => has_iterb c sz w i p && elemb sz x
  | LOther o => permittedb lo o
  end.
Lemma lpermittedb_ok c sz w lo k : lpermittedb c sz w lo k = true -> lpermitted c sz w lo k.
Proof.
  assert (SOME : forall i, match nth_error (lh_lists w) i with Some a => match forwards c sz w a with e :: _ => true | [] => false end | None => false end = true -> exists p, has_iter c sz w i p).
  { intros i H. unfold has_iter. destruct (nth_error (lh_lists w) i) as [a|]; [|discriminate]. destruct (forwards c sz w a) as [|e t] eqn:E; [discriminate|].
    exists (fst e), a. split; [reflexivity|]. rewrite E. left. reflexivity. }
  destruct k as [a|i|i p x|i x|i x|i p|i|i|i p x|i|o]; cbn [lpermittedb lpermitted]; intros H.
  - repeat (apply andb_prop in H; destruct H as [H ?]). unfold free_place. rewrite forallb_forall in *. repeat split; try lia.
    intros o O. match goal with F : forall x, In x _ -> _ |- _ => specialize (F o O) end. lia.
  - apply Nat.ltb_lt, H.
  - apply andb_prop in H. destruct H as [H1 H2]. split; [apply elemb_ok, H1|]. apply orb_prop in H2. destruct H2 as [H2|H2]; [left; apply has_iterb_ok, H2|right].
    destruct (nth_error (lh_lists w) i); [|discriminate]. apply Z.eqb_eq in H2. congruence.
  - apply andb_prop in H. destruct H as [H1 H2]. split; [apply Nat.ltb_lt, H1|apply elemb_ok, H2].
  - apply andb_prop in H. destruct H as [H1 H2]. split; [apply Nat.ltb_lt, H1|apply elemb_ok, H2].
  - apply has_iterb_ok, H.
  - apply SOME, H.
  - apply SOME, H.
  - apply andb_prop in H. destruct H as [H1 H2]. split; [apply has_iterb_ok, H1|apply elemb_ok, H2].
  - apply Nat.ltb_lt, H.
  - apply permittedb_ok, H.
Qed.
Fixpoint lcheck (c : cfg) (sz : Z) (w : lheap) (lo : list held) (evs : list (lcmd * lret)) (ks : list lcmd) : option (lheap * list held * list (lcmd * lret)) :=
  match ks with
  | [] => Some (w, lo, evs)
  | k :: t =>
    if lpermittedb c sz w lo k then
      match lstep c sz w k with
      | Ok (w', r) => lcheck c sz w' (lothers lo k r (free_heap_size (lh_heap w)) (free_heap_size (lh_heap w'))) (evs ++ [(k, r)]) t
      | _ => None
      end
    else None
  end.
Lemma lcheck_runs c sz ks : forall w lo evs x, lruns c sz w lo evs -> lcheck c sz w lo evs ks = Some x -> lruns c sz (fst (fst x)) (snd (fst x)) (snd x).
Proof.
  induction ks as [|k ks IH]; intros w lo evs x RU H; cbn [lcheck] in H; [injection H as <-; exact RU|].
  destruct (lpermittedb c sz w lo k) eqn:P; [|discriminate]. destruct (lstep c sz w k) as [[w' r]| |] eqn:S; try discriminate.
  apply (IH _ _ _ x (lr_step c sz w lo evs k w' r RU (lpermittedb_ok _ _ _ _ _ P) S) H).
Qed.

(** List objects do not move. *)
Section Stay.
  Variable c : cfg.
  Variable sz : Z.
  Lemma put_lists w a v w' : put c w a v = Ok w' -> lh_lists w' = lh_lists w.
  Proof.
    unfold put. destruct (negb _); [discriminate|]. destruct (in_buffer c a).
    - destruct (write_bytes _ _ _ _); cbn [bind]; try discriminate. intros E. injection E as <-. reflexivity.
    - destruct (in_object w a); [|discriminate]. intros E. injection E as <-. reflexivity.
  Qed.
  Lemma init_lists w a w' : init_list c w a = Ok w' -> lh_lists w' = lh_lists w.
  Proof.
    unfold init_list. destruct (put c w a a) as [w1| |] eqn:E1; cbn [bind]; try discriminate. destruct (put c w1 (a + 8) a) as [w2| |] eqn:E2; cbn [bind]; try discriminate.
    intros E3. rewrite (put_lists _ _ _ _ E3), (put_lists _ _ _ _ E2). exact (put_lists _ _ _ _ E1).
  Qed.
  Lemma clear_lists n : forall w a cur w', clear_nodes c n w a cur = Ok w' -> lh_lists w' = lh_lists w.
  Proof.
    induction n as [|n IH]; intros w a cur w'; cbn [clear_nodes]; destruct (cur =? a); try (intros E; injection E as <-; reflexivity); try discriminate.
    destruct (get c w cur); cbn [bind]; try discriminate. unfold put_node. destruct (alloc_deallocate _ _ _); cbn [bind]; try discriminate.
    intros E. rewrite (IH _ _ _ _ E). reflexivity.
  Qed.
  Lemma clear_list_lists w a w' r : clear_list c w a = Ok (w', r) -> lh_lists w' = lh_lists w.
  Proof.
    unfold clear_list. destruct (get c w a); cbn [bind]; try discriminate. destruct (clear_nodes _ _ _ _ _) as [w1| |] eqn:E1; cbn [bind]; try discriminate.
    destruct (init_list c w1 a) as [w2| |] eqn:E2; cbn [bind]; try discriminate. intros E. injection E as <- _. rewrite (init_lists _ _ _ E2). exact (clear_lists _ _ _ _ _ E1).
  Qed.
  Lemma insert_lists w a pos x w' r : insert_node c sz w a pos x = Ok (w', r) -> lh_lists w' = lh_lists w.
  Proof.
    unfold insert_node, hook. destruct (alloc_allocate _ _ _ _) as [[h [n|]]| |]; cbn [bind]; try discriminate; [|intros E; injection E as <- _; reflexivity].
    destruct (write_bytes _ _ _ _) as [h1| |]; cbn [bind]; try discriminate.
    destruct (put c _ n pos) as [w1| |] eqn:E1; cbn [bind]; try discriminate. destruct (get c w1 _); cbn [bind]; try discriminate.
    destruct (put c w1 _ _) as [w2| |] eqn:E2; cbn [bind]; try discriminate. destruct (get c w2 _); cbn [bind]; try discriminate.
    destruct (put c w2 _ _) as [w3| |] eqn:E3; cbn [bind]; try discriminate. destruct (put c w3 _ _) as [w4| |] eqn:E4; cbn [bind]; try discriminate.
    destruct (get c w4 _); cbn [bind]; try discriminate. destruct (put c w4 _ _) as [w5| |] eqn:E5; cbn [bind]; try discriminate.
    intros E. injection E as <- _. rewrite (put_lists _ _ _ _ E5), (put_lists _ _ _ _ E4), (put_lists _ _ _ _ E3), (put_lists _ _ _ _ E2), (put_lists _ _ _ _ E1). reflexivity.
  Qed.
  Lemma erase_lists w a p w' r : erase_node c w a p = Ok (w', r) -> lh_lists w' = lh_lists w.
  Proof.
    unfold erase_node, unhook, put_node. destruct (get c w p); cbn [bind]; try discriminate. destruct (get c w _); cbn [bind]; try discriminate.
    destruct (put c w _ _) as [w1| |] eqn:E1; cbn [bind]; try discriminate. destruct (get c w1 _); cbn [bind]; try discriminate. destruct (get c w1 _); cbn [bind]; try discriminate.
    destruct (put c w1 _ _) as [w2| |] eqn:E2; cbn [bind]; try discriminate. destruct (put c w2 _ _) as [w3| |] eqn:E3; cbn [bind]; try discriminate.
    destruct (alloc_deallocate _ _ _); cbn [bind]; try discriminate. intros E. injection E as <- _. cbn [lh_lists].
    rewrite (put_lists _ _ _ _ E3), (put_lists _ _ _ _ E2). exact (put_lists _ _ _ _ E1).
  Qed.
  Lemma lists_stay w k w' r i a : lstep c sz w k = Ok (w', r) -> nth_error (lh_lists w) i = Some a -> nth_error (lh_lists w') i = Some a.
  Proof.
    intros S EA. assert (IL : (i < length (lh_lists w))%nat) by (apply nth_error_Some; congruence).
    destruct k as [b|j|j q y|j y|j y|j q|j|j|j q y|j|o]; cbn [lstep] in S.
    - destruct (init_list c _ b) as [w1| |] eqn:E; cbn [bind] in S; try discriminate. injection S as <- _. rewrite (init_lists _ _ _ E). cbn [lh_lists].
      rewrite nth_error_app1 by exact IL. exact EA.
    - unfold on_list in S. destruct (nth_error (lh_lists w) j); [|discriminate]. rewrite (clear_list_lists _ _ _ _ S). exact EA.
    - unfold on_list in S. destruct (nth_error (lh_lists w) j); [|discriminate]. rewrite (insert_lists _ _ _ _ _ _ S). exact EA.
    - unfold on_list in S. destruct (nth_error (lh_lists w) j); [|discriminate]. rewrite (insert_lists _ _ _ _ _ _ S). exact EA.
    - unfold on_list in S. destruct (nth_error (lh_lists w) j); [|discriminate]. destruct (get c w _); cbn [bind] in S; try discriminate. rewrite (insert_lists _ _ _ _ _ _ S). exact EA.
    - unfold on_list in S. destruct (nth_error (lh_lists w) j); [|discriminate]. rewrite (erase_lists _ _ _ _ _ S). exact EA.
    - unfold on_list in S. destruct (nth_error (lh_lists w) j); [|discriminate]. destruct (get c w _); cbn [bind] in S; try discriminate.
      destruct (erase_node c w _ _) as [[w1 q]| |] eqn:E; cbn [bind] in S; try discriminate. injection S as <- _. rewrite (erase_lists _ _ _ _ _ E). exact EA.
    - unfold on_list in S. destruct (nth_error (lh_lists w) j); [|discriminate]. destruct (get c w _); cbn [bind] in S; try discriminate.
      destruct (erase_node c w _ _) as [[w1 q]| |] eqn:E; cbn [bind] in S; try discriminate. injection S as <- _. rewrite (erase_lists _ _ _ _ _ E). exact EA.
    - unfold on_list in S. destruct (nth_error (lh_lists w) j); [|discriminate]. destruct (write_bytes _ _ _ _); cbn [bind] in S; try discriminate. injection S as <- _. exact EA.
    - unfold on_list in S. destruct (nth_error (lh_lists w) j); [|discriminate]. rewrite (clear_list_lists _ _ _ _ S). exact EA.
    - destruct (apply c _ o) as [[h q]| |]; cbn [bind] in S; try discriminate. injection S as <- _. exact EA.
  Qed.
End Stay.
