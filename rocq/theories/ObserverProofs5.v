(** A callback that changes the set of observers during a notification. *)
From Verif Require Export ObserverProofs4.

Lemma last_cons_default {A} (l : list A) x y : last (x :: l) y = last l x.
Proof.
  revert x y. induction l as [|z l IH]; intros x y; [reflexivity|].
  change (last (x :: z :: l) y) with (last (z :: l) y). rewrite !IH. reflexivity.
Qed.

Lemma compact_one rest : forall done y t o, ~ In o rest ->
  compact (map Some done ++ Some y :: map Some rest ++ t) (length done) (S (length done)) (length rest) o
  = Ok (map Some (done ++ rest) ++ Some (last rest y) :: t, (length done + length rest)%nat).
Proof.
  induction rest as [|x rest IH]; intros done y t o H.
  - cbn. rewrite app_nil_r, Nat.add_0_r. reflexivity.
  - cbn [map length compact app].
    assert (E1 : slot (map Some done ++ Some y :: Some x :: map Some rest ++ t) (S (length done)) = Ok (Some x)).
    { replace (map Some done ++ Some y :: Some x :: map Some rest ++ t)
        with ((map Some done ++ [Some y]) ++ Some x :: map Some rest ++ t) by (rewrite <- app_assoc; reflexivity).
      replace (S (length done)) with (length (map Some done ++ [Some y])) by (rewrite app_length, map_length; cbn; lia).
      apply slot_app. }
    rewrite E1. cbn [bind points_to].
    destruct (Pos.eqb_spec x o) as [E|N]; [destruct H; left; exact E|].
    assert (E2 : put_slot (map Some done ++ Some y :: Some x :: map Some rest ++ t) (length done) (Some x)
                 = Ok (map Some done ++ Some x :: Some x :: map Some rest ++ t)).
    { replace (length done) with (length (map (@Some positive) done)) by apply map_length. apply put_app. }
    rewrite E2. cbn [bind].
    specialize (IH (done ++ [x]) x t o). rewrite map_app, app_length in IH. cbn [map length] in IH.
    rewrite <- app_assoc in IH. cbn [app] in IH. replace (length done + 1)%nat with (S (length done)) in IH by lia.
    rewrite IH by (intros X; apply H; right; exact X).
    rewrite last_cons_default, <- app_assoc. cbn [app]. f_equal. f_equal. lia.
Qed.

Lemma remove_observer_exact Max l1 l2 t o :
  (length (l1 ++ o :: l2) <= max_observers Max)%nat -> NoDup (l1 ++ o :: l2) ->
  remove_observer Max (map Some (l1 ++ o :: l2) ++ t) (length (l1 ++ o :: l2)) o
  = Ok (map Some (l1 ++ l2 ++ [last l2 o]) ++ t, length (l1 ++ l2), ok).
Proof.
  intros HL ND. apply NoDup_remove in ND. destruct ND as [_ NI]. rewrite in_app_iff in NI.
  unfold remove_observer, std_remove. replace (max_observers Max <? _)%nat with false by lia.
  rewrite app_length in HL |- *. cbn [length] in HL |- *.
  replace (length l1 + S (length l2) =? 0)%nat with false by lia.
  destruct (find_spec (l1 ++ o :: l2) [] t o) as [[H1 H2]|(k1 & k2 & H1 & H2 & H3)]; cbn [app length Nat.add] in *.
  { destruct H1. apply in_app_iff. right. left. reflexivity. }
  assert (K : k1 = l1 /\ k2 = l2).
  { clear -H1 H2 NI. revert k1 H1 H2 NI. induction l1 as [|y l1 IH]; intros [|z k1] H1 H2 NI; cbn in H1.
    - inversion H1. split; reflexivity.
    - inversion H1; subst. destruct H2. left. reflexivity.
    - inversion H1; subst. destruct NI. left. left. reflexivity.
    - inversion H1; subst. destruct (IH k1 H3) as [-> ->]; [intros X; apply H2; right; exact X| |split; reflexivity].
      intros [X|X]; apply NI; [left; right; exact X|right; exact X]. }
  destruct K as [-> ->]. rewrite app_length in H3. cbn [length] in H3. rewrite H3. cbn [bind].
  replace (length l1 =? length l1 + S (length l2))%nat with false by lia.
  replace (length l1 + S (length l2) - S (length l1))%nat with (length l2) by lia.
  pose proof (compact_one l2 l1 o t o ltac:(tauto)) as C.
  rewrite map_app, <- app_assoc. cbn [map app]. rewrite C. cbn [bind].
  replace (length l1 + S (length l2) - (length l1 + length l2) =? 0)%nat with false by lia. cbn [negb].
  rewrite !map_app, app_length, <- !app_assoc. reflexivity.
Qed.

Section React.
  Context {V : Type}.
  Variable self : addr.
  Variable Max : Z.
  Variable on_data : list (ev V) -> addr -> V -> body V.
  Variable on_disc : list (ev V) -> addr -> body V.
  Notation run := (run self Max on_data on_disc).
  Notation inv := (@inv V self Max).

  Lemma silent_data_loop step v l :
    forall p t w, w_slots w = map Some (p ++ l) ++ t -> (forall log o, In o l -> on_data log o v = Return) ->
    loop (fun i => call_data self on_data step i v) (length p) (length l) w
    = Ok (W (w_slots w) (w_cnt w) (w_inside w) (w_log w ++ map (fun o => Data self o v) l)).
  Proof.
    induction l as [|o l IH]; intros p t w Hs Q; cbn [length loop].
    - cbn. rewrite app_nil_r. destruct w; reflexivity.
    - unfold call_data at 1. rewrite Hs.
      replace (map Some (p ++ o :: l) ++ t) with (map Some p ++ Some o :: map Some l ++ t)
        by (rewrite map_app, <- app_assoc; reflexivity).
      rewrite <- (map_length (@Some positive) p) at 1. rewrite slot_app. cbn [bind].
      rewrite Q by (left; reflexivity). cbn [run_body bind].
      assert (H := IH (p ++ [o]) t (emit w (Data self o v))).
      rewrite app_length in H. cbn [length] in H. replace (length p + 1)%nat with (S (length p)) in H by lia.
      rewrite H; [|cbn [emit w_slots]; rewrite Hs, <- app_assoc; reflexivity|intros; apply Q; right; assumption].
      cbn [emit w_slots w_cnt w_inside w_log map]. rewrite <- app_assoc, Hs, map_app, <- app_assoc. reflexivity.
  Qed.

  Lemma oloop_app (f : nat -> world V -> res (world V)) a : forall i b w,
    loop f i (a + b) w = (w1 <- loop f i a w ;; loop f (i + a) b w1).
  Proof.
    induction a as [|a IH]; intros i b w; cbn [loop Nat.add bind].
    - rewrite Nat.add_0_r. reflexivity.
    - destruct (f i w) as [w'| |]; cbn [bind]; [|reflexivity|reflexivity].
      rewrite IH. replace (S i + a)%nat with (i + S a)%nat by lia. reflexivity.
  Qed.

  (** One observer makes the call [c]; its effect on the slots is known; nobody reached
      afterwards does anything. *)
  Lemma react_notify f w v a c pre post rest slots' r evs :
    inv w -> w_inside w = false -> members (w_log w) = pre ++ a :: post ->
    (forall log o, o <> a -> on_data log o v = Return) ->
    (forall log, on_data log a v = Do c (fun _ => Return)) ->
    (forall t log, w_slots w = map Some (pre ++ a :: post) ++ t ->
       exists n, run f (W (w_slots w) (length (pre ++ a :: post)) true (log ++ [Data self a v])) c
         = Ok (W slots' n true ((log ++ [Data self a v]) ++ evs), r) /\
         exists q t', slots' = map Some (q ++ rest) ++ t' /\ length q = S (length pre)) ->
    length rest = length post -> ~ In a rest ->
    exists w', run (S f) w (Notify v) = Ok (w', ok) /\
      w_log w' = w_log w ++ map (fun o => Data self o v) (pre ++ [a]) ++ evs
                 ++ map (fun o => Data self o v) rest ++ [Ret (Notify v) ok].
  Proof.
    intros I J M Q A HC LR NR. cbn [ObserverModel.run]. rewrite J.
    replace (max_observers Max <? w_cnt w)%nat with false by (pose proof (inv_le self Max w I); lia).
    pose proof (i_nodup _ _ _ I) as ND. rewrite M in ND. apply NoDup_remove in ND. destruct ND as [ND NA].
    rewrite in_app_iff in NA.
    destruct (i_repr _ _ _ I) as [t Ht]. rewrite (i_cnt _ _ _ I). rewrite M in *.
    set (w0 := W _ _ _ _). rewrite app_length. cbn [length]. rewrite oloop_app.
    pose proof (silent_data_loop (run f) v pre [] (map Some (a :: post) ++ t) w0) as L1.
    cbn [length app] in L1. rewrite L1; clear L1.
    2:{ unfold w0. cbn [w_slots]. rewrite Ht, map_app, <- app_assoc. reflexivity. }
    2:{ intros log o H. apply Q. intros ->. tauto. }
    cbn [bind loop Nat.add]. unfold w0. cbn [w_slots w_cnt w_inside w_log].
    unfold call_data at 1. cbn [w_slots].
    assert (SA : slot (w_slots w) (length pre) = Ok (Some a)).
    { rewrite Ht, map_app, <- app_assoc. cbn [map app].
      replace (length pre) with (length (map (@Some positive) pre)) by apply map_length. apply slot_app. }
    rewrite SA. cbn [bind]. rewrite A. cbn [run_body]. unfold emit. cbn [w_slots w_cnt w_inside w_log].
    destruct (HC t (w_log w ++ map (fun o => Data self o v) pre) Ht) as (n & E & q & t' & Hs & Hq).
    rewrite E. cbn [bind].
    match goal with |- context [loop _ (S (length pre)) _ ?x] =>
      pose proof (silent_data_loop (run f) v rest q t' x) as L3 end.
    rewrite Hq, LR in L3. rewrite L3; clear L3.
    2:{ cbn [w_slots]. exact Hs. }
    2:{ intros log o H. apply Q. intros ->. tauto. }
    cbn [bind]. eexists. split; [reflexivity|]. cbn [emit w_log].
    rewrite map_app, <- !app_assoc. reflexivity.
  Qed.
End React.

Section Removers.
  Context {V : Type}.
  Variable self : addr.
  Variable Max : Z.
  Variable on_disc : list (ev V) -> addr -> body V.
  Notation inv := (@inv V self Max).

  Lemma remover_other a x log o (v : V) : o <> a -> remover a x log o v = Return.
  Proof. intros H. unfold remover. destruct (Pos.eqb_spec o a); [contradiction|reflexivity]. Qed.
  Lemma remover_self a x log (v : V) : remover a x log a v = Do (Remove x) (fun _ => Return).
  Proof. unfold remover. rewrite Pos.eqb_refl. reflexivity. Qed.

  (** The removed observer stands at [l1 ++ x :: l2]. *)
  Lemma remover_notify f w v a x pre post l1 l2 q rest :
    inv w -> w_inside w = false -> members (w_log w) = pre ++ a :: post ->
    pre ++ a :: post = l1 ++ x :: l2 ->
    l1 ++ l2 ++ [last l2 x] = q ++ rest -> length q = S (length pre) -> ~ In a rest ->
    exists w', run self Max (remover a x) on_disc (S (S f)) w (Notify v) = Ok (w', ok) /\
      w_log w' = w_log w ++ map (fun o => Data self o v) (pre ++ [a]) ++ [Ret (Remove x) ok]
                 ++ map (fun o => Data self o v) rest ++ [Ret (Notify v) ok].
  Proof.
    intros I J M E1 E2 LQ NR.
    assert (LE : (length (l1 ++ x :: l2) <= max_observers Max)%nat).
    { pose proof (inv_le _ _ w I) as H. rewrite (i_cnt _ _ _ I), M, E1 in H. exact H. }
    assert (ND : NoDup (l1 ++ x :: l2)).
    { pose proof (i_nodup _ _ _ I) as H. rewrite M, E1 in H. exact H. }
    destruct (i_repr _ _ _ I) as [t Ht]. rewrite M in Ht.
    eapply (react_notify self Max (remover a x) on_disc (S f) w v a (Remove x) pre post rest
              (map Some (l1 ++ l2 ++ [last l2 x]) ++ t) ok [Ret (Remove x) ok]); try assumption.
    - intros log o H. apply remover_other, H.
    - intros log. apply remover_self.
    - intros t0 log Ht0. cbn [run w_slots w_cnt w_log w_inside]. rewrite Ht, E1.
      rewrite (remove_observer_exact Max l1 l2 t x LE ND). cbn [bind].
      eexists. split; [reflexivity|]. exists q, t. rewrite E2. split; [reflexivity|exact LQ].
    - assert (H := f_equal (@length _) E2). assert (H' := f_equal (@length _) E1).
      rewrite !app_length in H, H'. cbn [length] in H, H'. rewrite app_length in H. lia.
  Qed.
End Removers.

Lemma recipients_app {V} (l1 l2 : list (ev V)) : recipients (l1 ++ l2) = recipients l1 ++ recipients l2.
Proof. apply flat_map_app. Qed.
Lemma recipients_data {V} (self : addr) (v : V) l : recipients (map (fun o => Data self o v) l) = l.
Proof. induction l as [|o l IH]; cbn; [reflexivity|]. f_equal. exact IH. Qed.
Lemma members_data {V} (self : addr) (v : V) l m : fold_left member_step (map (fun o => Data self o v) l) m = m.
Proof. revert m. induction l as [|o l IH]; intros m; cbn; [reflexivity|]. apply IH. Qed.

Lemma last_in {A} (l : list A) x : In (last l x) (x :: l).
Proof.
  revert x. induction l as [|y l IH]; intros x; [left; reflexivity|].
  rewrite last_cons_default. right. apply IH.
Qed.

Lemma skipped_counts (pre post : list addr) a s :
  NoDup (pre ++ a :: s :: post) -> post <> [] ->
  forall o, count_occ Pos.eq_dec ((pre ++ [a]) ++ post ++ [last post s]) o
    = if Pos.eq_dec o s then 0%nat else if Pos.eq_dec o (last post s) then 2%nat
      else if in_dec Pos.eq_dec o (pre ++ a :: s :: post) then 1%nat else 0%nat.
Proof.
  intros ND NE o.
  assert (LI : In (last post s) post).
  { destruct post as [|y l]; [congruence|]. rewrite last_cons_default. apply last_in. }
  assert (C : count_occ Pos.eq_dec (pre ++ a :: s :: post) o
              = if in_dec Pos.eq_dec o (pre ++ a :: s :: post) then 1%nat else 0%nat).
  { destruct (in_dec Pos.eq_dec o (pre ++ a :: s :: post)) as [H|H].
    - apply NoDup_count_occ'; assumption.
    - apply count_occ_not_In, H. }
  assert (NS : In o post -> o <> s).
  { intros H ->. replace (pre ++ a :: s :: post) with ((pre ++ [a]) ++ s :: post) in ND by (rewrite <- app_assoc; reflexivity).
    apply NoDup_remove_2 in ND. apply ND, in_app_iff. right. exact H. }
  set (P := in_dec Pos.eq_dec o (pre ++ a :: s :: post)) in *.
  repeat rewrite count_occ_app in *. cbn [count_occ] in *.
  destruct (Pos.eq_dec o s) as [->|N1].
  - destruct (Pos.eq_dec s s) as [_|X]; [|congruence].
    assert (PP : (if P then 1%nat else 0%nat) = 1%nat).
    { destruct P as [H|H]; [reflexivity|]. destruct H. apply in_app_iff. right. right. left. reflexivity. }
    rewrite PP in C. destruct (Pos.eq_dec (last post s) s) as [X|_]; [exfalso; apply NS; [rewrite <- X at 1; exact LI|reflexivity]|].
    destruct (Pos.eq_dec a s); lia.
  - destruct (Pos.eq_dec s o) as [X|_]; [congruence|].
    destruct (Pos.eq_dec (last post s) o) as [EL|NL].
    + destruct (Pos.eq_dec o (last post s)) as [_|X]; [|congruence].
      assert (PP : (if P then 1%nat else 0%nat) = 1%nat).
      { destruct P as [H|H]; [reflexivity|]. destruct H. apply in_app_iff. right. right. right. rewrite <- EL. exact LI. }
      rewrite PP in C. destruct (Pos.eq_dec a o); lia.
    + destruct (Pos.eq_dec o (last post s)) as [X|_]; [congruence|]. rewrite <- C. destruct (Pos.eq_dec a o); lia.
Qed.
