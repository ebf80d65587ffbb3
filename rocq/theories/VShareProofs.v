From Coq Require Import Permutation.
From Verif Require Export VShareSpec ValuesProofs1 ValuesProofs3.

Lemma gput_split l1 x l2 y : gput (l1 ++ x :: l2) (length l1) y = l1 ++ y :: l2.
Proof. induction l1 as [|z l1 IH]; cbn; [reflexivity|f_equal; exact IH]. Qed.

Lemma of_thread_snoc i log j e : of_thread i (log ++ [(j, e)]) = of_thread i log ++ (if (j =? i)%nat then [e] else []).
Proof. unfold of_thread. rewrite flat_map_app. cbn [flat_map fst snd]. rewrite app_nil_r. reflexivity. Qed.
Lemma pubs_snoc log j e : publications (log ++ [(j, e)]) = publications log ++ match e with Updated _ _ p => [p] | _ => [] end.
Proof. unfold publications. rewrite flat_map_app. cbn [flat_map fst snd]. rewrite app_nil_r. reflexivity. Qed.
Lemma args_snoc o log j e : arguments o (log ++ [(j, e)]) = arguments o log ++ match e with Entered o' n => if Pos.eqb o' o then [n] else [] | _ => [] end.
Proof. unfold arguments. rewrite flat_map_app. cbn [flat_map fst snd]. rewrite app_nil_r. reflexivity. Qed.
Lemma reads_snoc log j e : reads (log ++ [(j, e)]) = reads log ++ match e with Got z => [z] | _ => [] end.
Proof. unfold reads. rewrite flat_map_app. cbn [flat_map fst snd]. rewrite app_nil_r. reflexivity. Qed.
Lemma reads_of_snoc o log j e : reads_of o (log ++ [(j, e)]) = reads_of o log ++ match e with GotSeen o' z => if Pos.eqb o' o then [z] else [] | _ => [] end.
Proof. unfold reads_of. rewrite flat_map_app. cbn [flat_map fst snd]. rewrite app_nil_r. reflexivity. Qed.
Lemma before_snoc v log j e : before_last v (log ++ [(j, e)]) = match e with Updated _ x _ => x | _ => before_last v log end.
Proof. unfold before_last. rewrite fold_left_app. reflexivity. Qed.

Section Share.
  Variable t : ity.
  Variable obs : list addr.
  Variable cb : addr -> bool.
  Notation gstep := (gstep t obs cb).
  Notation grun := (grun t obs cb).

  (** The four kinds of steps. *)
  Inductive move (w : gworld) (i : nat) : gworld -> Prop :=
  | mv_next l1 l2 todo e next : g_threads w = l1 ++ GT todo (e :: next) :: l2 -> length l1 = i ->
      move w i (GW (g_val w) (match e with Stored o n => set_mirror (g_mirror w) o n | _ => g_mirror w end)
                   (l1 ++ GT todo next :: l2) (g_log w ++ [(i, e)]))
  | mv_upd l1 l2 todo op p : g_threads w = l1 ++ GT (GUpd op :: todo) [] :: l2 -> length l1 = i -> published t (g_val w) op = Ok p ->
      move w i (GW (apply_atomic t (g_val w) op) (g_mirror w) (l1 ++ GT todo (rest_of_update obs cb p) :: l2) (g_log w ++ [(i, Updated op (g_val w) p)]))
  | mv_value l1 l2 todo : g_threads w = l1 ++ GT (GValue :: todo) [] :: l2 -> length l1 = i ->
      move w i (GW (g_val w) (g_mirror w) (l1 ++ GT todo [] :: l2) (g_log w ++ [(i, Got (g_val w))]))
  | mv_seen l1 l2 todo o : g_threads w = l1 ++ GT (GSeen o :: todo) [] :: l2 -> length l1 = i ->
      move w i (GW (g_val w) (g_mirror w) (l1 ++ GT todo [] :: l2) (g_log w ++ [(i, GotSeen o (g_mirror w o))])).

  Lemma gstep_move w i w' : gstep w i = Ok w' -> w' = w \/ move w i w'.
  Proof.
    unfold VShareModel.gstep. destruct (nth_error (g_threads w) i) as [[todo next]|] eqn:E; [|intros [= <-]; auto].
    destruct (nth_error_split _ _ E) as (l1 & l2 & EL & LL). rewrite EL. subst i. destruct next as [|e next].
    - destruct todo as [|[op| |o] todo].
      + intros [= <-]. auto.
      + destruct (published t (g_val w) op) as [p| |] eqn:P; cbn [bind]; try discriminate. rewrite gput_split. intros [= <-]. right. exact (mv_upd w _ l1 l2 todo op p EL eq_refl P).
      + rewrite gput_split. intros [= <-]. right. exact (mv_value w _ l1 l2 todo EL eq_refl).
      + rewrite gput_split. intros [= <-]. right. exact (mv_seen w _ l1 l2 todo o EL eq_refl).
    - cbv zeta. rewrite !gput_split. intros H. assert (H' : Ok (GW (g_val w) (match e with Stored o n => set_mirror (g_mirror w) o n | _ => g_mirror w end) (l1 ++ GT todo next :: l2) (g_log w ++ [(length l1, e)])) = Ok w') by (destruct todo as [|[op| |o] todo]; exact H).
      injection H' as <-. right. exact (mv_next w _ l1 l2 todo e next EL eq_refl).
  Qed.
  Lemma grun_inv (P : gworld -> Prop) : (forall w i w', P w -> move w i w' -> P w') -> forall s w w', P w -> grun w s = Ok w' -> P w'.
  Proof.
    intros ST. induction s as [|i s IH]; intros w w' H E; cbn in E; [injection E as <-; exact H|].
    destruct (gstep w i) as [w1| |] eqn:G; cbn [bind] in E; try discriminate. apply (IH w1 w'); [|exact E].
    destruct (gstep_move w i w1 G) as [->|M]; [exact H|exact (ST w i w1 H M)].
  Qed.

  (** ** each thread's events *)
  Lemma rest_whole op x p : [Updated op x p] ++ rest_of_update obs cb p = whole_update obs cb op x p.
  Proof.
    unfold whole_update, rest_of_update. do 2 f_equal. apply flat_map_ext. intros o. unfold tell. destruct (cb o); reflexivity.
  Qed.
  Definition shape (progs : list (list gcmd)) (w : gworld) : Prop :=
    length (g_threads w) = length progs /\
    forall i th, nth_error (g_threads w) i = Some th -> exists dn blocks, nth_error progs i = Some (dn ++ g_todo th) /\
      Forall2 (whole t obs cb) dn blocks /\ concat blocks = of_thread i (g_log w) ++ g_next th.

  Lemma mid {A} (l1 l2 : list A) x y j : nth_error (l1 ++ y :: l2) j = if (j =? length l1)%nat then Some y else nth_error (l1 ++ x :: l2) j.
  Proof.
    destruct (Nat.eqb_spec j (length l1)) as [->|NE]; [rewrite nth_error_app2, Nat.sub_diag by lia; reflexivity|].
    destruct (Nat.lt_ge_cases j (length l1)) as [L|L]; [rewrite !nth_error_app1 by exact L; reflexivity|].
    rewrite !nth_error_app2 by exact L. destruct (j - length l1)%nat eqn:D; [lia|]. reflexivity.
  Qed.

  Lemma shape_move progs w i w' : shape progs w -> move w i w' -> shape progs w'.
  Proof.
    intros [LN SH] M.
    assert (GO : forall l1 l2 th th' e, g_threads w = l1 ++ th :: l2 -> length l1 = i ->
      (forall dn blocks, nth_error progs i = Some (dn ++ g_todo th) -> Forall2 (whole t obs cb) dn blocks -> concat blocks = of_thread i (g_log w) ++ g_next th ->
        exists dn blocks, nth_error progs i = Some (dn ++ g_todo th') /\ Forall2 (whole t obs cb) dn blocks /\ concat blocks = (of_thread i (g_log w) ++ [e]) ++ g_next th') ->
      forall v m, shape progs (GW v m (l1 ++ th' :: l2) (g_log w ++ [(i, e)]))).
    { intros l1 l2 th th' e EL LL STEP v m. split; cbn [g_threads g_log]; [rewrite <- LN, EL, !app_length; reflexivity|].
      intros j u EJ. rewrite of_thread_snoc. rewrite (mid l1 l2 th th' j), LL in EJ. destruct (Nat.eqb_spec j i) as [->|NE].
      - injection EJ as <-. rewrite Nat.eqb_refl. destruct (SH i th) as (dn & blocks & E1 & E2 & E3); [rewrite EL, nth_error_app2, LL, Nat.sub_diag by lia; reflexivity|].
        exact (STEP dn blocks E1 E2 E3).
      - rewrite <- EL in EJ. destruct (Nat.eqb_spec i j); [congruence|]. rewrite app_nil_r. exact (SH j u EJ). }
    destruct M as [l1 l2 todo e next EL LL|l1 l2 todo op p EL LL EP|l1 l2 todo EL LL|l1 l2 todo o EL LL]; eapply GO; try exact EL; try exact LL; cbn [g_todo g_next]; intros dn blocks E1 E2 E3.
    - exists dn, blocks. split; [exact E1|]. split; [exact E2|]. rewrite E3, <- app_assoc. reflexivity.
    - exists (dn ++ [GUpd op]), (blocks ++ [whole_update obs cb op (g_val w) p]). rewrite <- app_assoc. split; [exact E1|]. split.
      + apply Forall2_app; [exact E2|]. constructor; [exists (g_val w), p; auto|constructor].
      + rewrite concat_app, E3. cbn [concat]. rewrite !app_nil_r, <- app_assoc. rewrite rest_whole. reflexivity.
    - exists (dn ++ [GValue]), (blocks ++ [[Got (g_val w)]]). rewrite <- app_assoc. split; [exact E1|]. split.
      + apply Forall2_app; [exact E2|]. constructor; [exists (g_val w); auto|constructor].
      + rewrite concat_app, E3. cbn [concat]. rewrite !app_nil_r. reflexivity.
    - exists (dn ++ [GSeen o]), (blocks ++ [[GotSeen o (g_mirror w o)]]). rewrite <- app_assoc. split; [exact E1|]. split.
      + apply Forall2_app; [exact E2|]. constructor; [exists (g_mirror w o); auto|constructor].
      + rewrite concat_app, E3. cbn [concat]. rewrite !app_nil_r. reflexivity.
  Qed.
  Lemma shape_start v m progs : shape progs (gstart v m progs).
  Proof.
    split; [cbn; apply map_length|]. intros i th E. cbn [gstart g_threads g_log] in *. rewrite nth_error_map in E.
    destruct (nth_error progs i) as [p|] eqn:EP; [|discriminate]. injection E as <-. exists [], []. cbn. auto.
  Qed.
  Lemma run_shape v m progs s w : grun (gstart v m progs) s = Ok w -> shape progs w.
  Proof. apply (grun_inv (shape progs)); [intros; eapply shape_move; eauto|apply shape_start]. Qed.

  (** ** every value once *)
  Definition pend (o : addr) (ths : list gthread) : list Z :=
    flat_map (fun th => flat_map (fun e => match e with Entered o' n => if Pos.eqb o' o then [n] else [] | _ => [] end) (g_next th)) ths.
  Lemma pend_mid o l1 th l2 : pend o (l1 ++ th :: l2) =
    pend o l1 ++ flat_map (fun e => match e with Entered o' n => if Pos.eqb o' o then [n] else [] | _ => [] end) (g_next th) ++ pend o l2.
  Proof. unfold pend. rewrite flat_map_app. reflexivity. Qed.
  Lemma pend_update o p : NoDup obs -> In o obs -> cb o = true ->
    flat_map (fun e => match e with Entered o' n => if Pos.eqb o' o then [n] else [] | _ => [] end) (rest_of_update obs cb p) = [p].
  Proof.
    intros ND IO CB. unfold rest_of_update. rewrite flat_map_app. cbn [flat_map app]. rewrite !app_nil_r.
    assert (NI : forall l, ~ In o l -> flat_map (fun e => match e with Entered o' n => if Pos.eqb o' o then [n] else [] | _ => [] end) (flat_map (tell cb p) l) = []).
    { induction l as [|y l IH]; intros N; [reflexivity|]. cbn [flat_map]. rewrite flat_map_app, IH by (intros X; apply N; right; exact X). rewrite app_nil_r.
      unfold tell. destruct (cb y); cbn; [|reflexivity]. destruct (Pos.eqb_spec y o) as [->|]; [exfalso; apply N; left; reflexivity|reflexivity]. }
    induction obs as [|y l IH]; [destruct IO|]. cbn [flat_map]. rewrite flat_map_app. apply NoDup_cons_iff in ND. destruct ND as [N1 N2].
    destruct IO as [->|IO].
    - rewrite NI by exact N1. rewrite app_nil_r. unfold tell. rewrite CB. cbn. rewrite Pos.eqb_refl. reflexivity.
    - rewrite IH by assumption. unfold tell. destruct (cb y); cbn; [|reflexivity]. destruct (Pos.eqb_spec y o) as [->|]; [contradiction|reflexivity].
  Qed.

  (** An update never waits; nor does a read. *)
  Definition waits (e : gev) : Prop := match e with Stored _ _ | Entered _ _ | Left _ _ | Returned _ => True | _ => False end.
  Definition tidy (w : gworld) : Prop := Forall (fun th => Forall waits (g_next th)) (g_threads w).
  Lemma rest_waits p : Forall waits (rest_of_update obs cb p).
  Proof.
    unfold rest_of_update. apply Forall_app. split; [|repeat constructor]. apply Forall_forall. intros e E. apply in_flat_map in E. destruct E as (o & _ & E).
    unfold tell in E. destruct (cb o); cbn in E; [destruct E as [<-|[<-|[<-|[]]]]|destruct E as [<-|[]]]; exact Logic.I.
  Qed.
  Lemma tidy_move w i w' : tidy w -> move w i w' -> tidy w'.
  Proof.
    intros H M. unfold tidy in *. destruct M as [l1 l2 todo e next EL LL|l1 l2 todo op p EL LL EP|l1 l2 todo EL LL|l1 l2 todo o' EL LL]; cbn [g_threads];
      rewrite EL in H; apply Forall_app in H; destruct H as [H1 H2]; apply Forall_app; (split; [exact H1|]); inversion H2 as [|? ? H3 H4]; subst; constructor; auto; cbn [g_next] in *.
    - inversion H3; assumption.
    - apply rest_waits.
  Qed.
  Lemma tidy_start v m progs : tidy (gstart v m progs).
  Proof. unfold tidy. apply Forall_forall. intros th H. cbn in H. apply in_map_iff in H. destruct H as (p & <- & _). constructor. Qed.
  Lemma run_tidy v m progs s w : grun (gstart v m progs) s = Ok w -> tidy w.
  Proof. apply (grun_inv tidy); [intros; eapply tidy_move; eauto|apply tidy_start]. Qed.
  Lemma tidy_mid w l1 l2 todo e next : tidy w -> g_threads w = l1 ++ GT todo (e :: next) :: l2 -> waits e.
  Proof. intros H E. unfold tidy in H. rewrite E in H. apply Forall_app in H. destruct H as [_ H]. inversion H as [|? ? H3 _]; subst. inversion H3; assumption. Qed.

  Definition once (o : addr) (w : gworld) : Prop := Permutation (arguments o (g_log w) ++ pend o (g_threads w)) (publications (g_log w)).
  Lemma once_move o w i w' : NoDup obs -> In o obs -> cb o = true -> tidy w -> once o w -> move w i w' -> once o w'.
  Proof.
    intros ND IO CB TD H M. unfold once in *.
    destruct M as [l1 l2 todo e next EL LL|l1 l2 todo op p EL LL EP|l1 l2 todo EL LL|l1 l2 todo o' EL LL]; cbn [g_threads g_log];
      rewrite EL in H; rewrite args_snoc, pubs_snoc; rewrite !pend_mid in *; cbn [g_next flat_map] in *; rewrite ?app_nil_r in *; try exact H.
    - assert (PE : Permutation ((arguments o (g_log w) ++ match e with Entered o' n => if Pos.eqb o' o then [n] else [] | _ => [] end) ++
          pend o l1 ++ flat_map (fun e => match e with Entered o' n => if Pos.eqb o' o then [n] else [] | _ => [] end) next ++ pend o l2) (publications (g_log w))).
      { eapply Permutation_trans; [|exact H]. rewrite <- !app_assoc. apply Permutation_app_head. apply Permutation_app_swap_app. }
      pose proof (tidy_mid w l1 l2 todo e next TD EL) as WE. destruct e; cbn in WE; try contradiction; rewrite ?app_nil_r; try exact PE; rewrite app_nil_r in PE; exact PE.
    - rewrite pend_update by assumption. cbn [app] in *. eapply Permutation_trans; [|apply Permutation_app_tail; exact H].
      rewrite <- app_assoc. apply Permutation_app_head. eapply Permutation_trans; [apply Permutation_sym, Permutation_middle|]. apply Permutation_cons_append.
  Qed.
  Lemma run_once o v m progs s w : NoDup obs -> In o obs -> cb o = true -> grun (gstart v m progs) s = Ok w -> once o w.
  Proof.
    intros ND IO CB E. apply (grun_inv (fun w => tidy w /\ once o w) ltac:(intros w0 i w1 [T O] M; split; [exact (tidy_move w0 i w1 T M)|exact (once_move o w0 i w1 ND IO CB T O M)]) s (gstart v m progs) w); [|exact E].
    split; [apply tidy_start|]. unfold once. cbn [gstart g_log g_threads]. unfold pend. replace (flat_map _ (map (fun p => GT p []) progs)) with (@nil Z); [constructor|].
    clear. induction progs as [|p l IH]; [reflexivity|]. cbn. exact IH.
  Qed.
  Lemma done_pend o w : all_done w -> pend o (g_threads w) = [].
  Proof.
    unfold all_done, pend. induction (g_threads w) as [|th l IH]; intros H; [reflexivity|]. inversion H as [|? ? [_ N] H']; subst. cbn [flat_map]. rewrite N, IH by exact H'. reflexivity.
  Qed.

  (** ** counting *)
  Definition ops_left (ths : list gthread) : nat := length (filter is_update (flat_map g_todo ths)).
  Lemma left_mid l1 th l2 : ops_left (l1 ++ th :: l2) = (ops_left l1 + length (filter is_update (g_todo th)) + ops_left l2)%nat.
  Proof. unfold ops_left. rewrite flat_map_app. cbn [flat_map]. rewrite !filter_app, !app_length. lia. Qed.
  Definition only (P : vop -> Prop) (w : gworld) : Prop := forall th op, In th (g_threads w) -> In (GUpd op) (g_todo th) -> P op.
  Lemma only_move P w i w' : only P w -> move w i w' -> only P w'.
  Proof.
    intros H M th op IT IO.
    destruct M as [l1 l2 todo e next EL LL|l1 l2 todo op' p EL LL EP|l1 l2 todo EL LL|l1 l2 todo o' EL LL]; cbn [g_threads] in IT; apply in_app_or in IT;
      destruct IT as [IT|[<-|IT]]; cbn [g_todo] in *;
      try (apply (H th op); [rewrite EL; apply in_or_app; auto; right; right; assumption|exact IO]);
      [apply (H (GT todo (e :: next)) op)|apply (H (GT (GUpd op' :: todo) []) op)|apply (H (GT (GValue :: todo) []) op)|apply (H (GT (GSeen o' :: todo) []) op)];
      try (rewrite EL; apply in_or_app; right; left; reflexivity); cbn [g_todo]; try (right; exact IO); exact IO.
  Qed.
  Lemma only_start P v m progs : only_ops P progs -> only P (gstart v m progs).
  Proof. intros H th op IT IO. cbn in IT. apply in_map_iff in IT. destruct IT as (p & <- & IP). exact (H p op IP IO). Qed.

  Definition counted (v : Z) (N : nat) (w : gworld) : Prop :=
    publications (g_log w) = map (fun k => conv t (v + Z.of_nat k)) (seq 1 (length (publications (g_log w)))) /\
    g_val w = conv t (v + Z.of_nat (length (publications (g_log w)))) /\
    (length (publications (g_log w)) + ops_left (g_threads w) = N)%nat.
  Lemma counted_move v N w i w' : ity_ok t -> tidy w -> only (fun op => op = PreInc) w -> counted v N w -> move w i w' -> counted v N w'.
  Proof.
    intros T TD ON (H1 & H2 & H3) M. unfold counted.
    destruct M as [l1 l2 todo e next EL LL|l1 l2 todo op p EL LL EP|l1 l2 todo EL LL|l1 l2 todo o' EL LL]; cbn [g_threads g_log g_val]; rewrite !pubs_snoc;
      rewrite EL in H3; rewrite left_mid in *; cbn [g_todo filter is_update length] in *.
    - pose proof (tidy_mid w l1 l2 todo e next TD EL) as WE. destruct e; cbn in WE; try contradiction; rewrite app_nil_r; auto.
    - assert (op = PreInc) by (apply (ON (GT (GUpd op :: todo) []) op); [rewrite EL; apply in_or_app; right; left; reflexivity|left; reflexivity]). subst op.
      assert (PV : p = conv t (v + Z.of_nat (S (length (publications (g_log w)))))).
      { assert (E : p = conv t (g_val w + 1)). { cbn [published] in EP. destruct (arith (common t) (g_val w + 1)) as [r| |] eqn:A; cbn [bind] in EP; try discriminate. injection EP as <-. exact (arith_ok t _ r T A). }
        rewrite E, H2, conv_add_l by exact T. f_equal. lia. }
      rewrite app_length. cbn [length]. rewrite Nat.add_1_r. split; [|split].
      + rewrite seq_S, map_app. cbn [map]. rewrite <- H1, PV. reflexivity.
      + cbn [apply_atomic]. rewrite conv_add_r, H2, conv_add_l by exact T. f_equal. lia.
      + lia.
    - rewrite app_nil_r. auto.
    - rewrite app_nil_r. auto.
  Qed.
  Lemma run_counted v m progs s w : ity_ok t -> in_ity t v -> only_ops (fun op => op = PreInc) progs -> grun (gstart v m progs) s = Ok w ->
    counted v (updates progs) w.
  Proof.
    intros T V ON E.
    apply (grun_inv (fun w => (tidy w /\ only (fun op => op = PreInc) w) /\ counted v (updates progs) w)
      ltac:(intros w0 i w1 [[TD O] C] M; split; [split; [exact (tidy_move w0 i w1 TD M)|exact (only_move _ w0 i w1 O M)]|exact (counted_move v _ w0 i w1 T TD O C M)]) s (gstart v m progs) w); [|exact E].
    split; [split; [apply tidy_start|apply only_start, ON]|]. unfold counted. cbn [gstart g_log g_val g_threads publications flat_map length seq map].
    split; [reflexivity|]. split; [rewrite Z.add_0_r; symmetry; apply conv_id; assumption|]. unfold ops_left, updates. cbn. do 2 f_equal.
    clear. induction progs as [|p l IH]; [reflexivity|]. cbn. rewrite IH. reflexivity.
  Qed.
  Lemma done_left w : all_done w -> ops_left (g_threads w) = 0%nat.
  Proof.
    unfold all_done, ops_left. induction (g_threads w) as [|th l IH]; intros H; [reflexivity|]. inversion H as [|? ? [N _] H']; subst. cbn [flat_map]. rewrite N. exact (IH H').
  Qed.

  (** ** readers of the observable *)
  Lemma increasing_snoc l z : increasing l -> Forall (fun y => y <= z) l -> increasing (l ++ [z]).
  Proof.
    induction l as [|x l IH]; cbn [app increasing]; intros H F; [split; constructor|]. destruct H as [H1 H2]. inversion F as [|? ? F1 F2]; subst.
    split; [apply Forall_app; split; [exact H1|constructor; [exact F1|constructor]]|exact (IH H2 F2)].
  Qed.
  Lemma value_now v N w : ity_ok t -> in_ity t v -> v + Z.of_nat N <= hi t -> counted v N w -> g_val w = v + Z.of_nat (length (publications (g_log w))).
  Proof. intros T V B (_ & H2 & H3). rewrite H2. apply conv_id; [exact T|]. unfold in_ity in *. lia. Qed.
  Definition rising (w : gworld) : Prop := increasing (reads (g_log w)) /\ Forall (fun y => y <= g_val w) (reads (g_log w)).
  Lemma rising_move w i w' : g_val w <= g_val w' -> tidy w -> rising w -> move w i w' -> rising w'.
  Proof.
    intros LE TD [H1 H2] M. unfold rising.
    destruct M as [l1 l2 todo e next EL LL|l1 l2 todo op p EL LL EP|l1 l2 todo EL LL|l1 l2 todo o' EL LL]; cbn [g_log g_val] in *; rewrite !reads_snoc.
    - pose proof (tidy_mid w l1 l2 todo e next TD EL) as WE. destruct e; cbn in WE; try contradiction; rewrite app_nil_r; auto.
    - rewrite app_nil_r. split; [exact H1|]. apply Forall_forall. intros y Y. rewrite Forall_forall in H2. specialize (H2 y Y). lia.
    - split; [apply increasing_snoc; assumption|]. apply Forall_app. split; [exact H2|]. constructor; [lia|constructor].
    - rewrite app_nil_r. auto.
  Qed.
  Lemma pubs_grow w i w' : move w i w' -> (length (publications (g_log w)) <= length (publications (g_log w')))%nat.
  Proof. intros M. destruct M; cbn [g_log]; rewrite pubs_snoc, app_length; lia. Qed.
  Lemma run_rising v m progs s w : ity_ok t -> in_ity t v -> v + Z.of_nat (updates progs) <= hi t -> only_ops (fun op => op = PreInc) progs ->
    grun (gstart v m progs) s = Ok w -> increasing (reads (g_log w)).
  Proof.
    intros T V B ON E.
    apply (grun_inv (fun w => ((tidy w /\ only (fun op => op = PreInc) w) /\ counted v (updates progs) w) /\ rising w)
      ltac:(intros w0 i w1 [[[TD O] C] R] M;
            assert (C1 := counted_move v _ w0 i w1 T TD O C M);
            split; [split; [split; [exact (tidy_move w0 i w1 TD M)|exact (only_move _ w0 i w1 O M)]|exact C1]|];
            apply (rising_move w0 i w1); [rewrite (value_now v _ w0 T V B C), (value_now v _ w1 T V B C1); pose proof (pubs_grow w0 i w1 M); lia|exact TD|exact R|exact M]) s (gstart v m progs) w); [|exact E].
    split; [split; [split; [apply tidy_start|apply only_start, ON]|]|].
    - exact (run_counted v m progs [] (gstart v m progs) T V ON eq_refl).
    - split; constructor.
  Qed.
End Share.
