(** Invariant of a network of value observables under arbitrary callbacks. *)
From Verif Require Export ValuesProofs4 VNetSpec.

Section Inv.
  Variable ty : addr -> ity.
  Variable Max : addr -> Z.
  Hypothesis T : forall s, ity_ok (ty s).
  Notation cap s := (max_observers (Max s)).

  Lemma xmembers_snoc log e : xmembers (log ++ [e]) = xmember_step (xmembers log) e.
  Proof. unfold xmembers. rewrite fold_left_app. reflexivity. Qed.

  Definition xadded (log : list xev) (s o : addr) : Prop := In (XRet (XAdd s o) (RErr ok)) log.
  Lemma xadded_app log evs s o : xadded log s o -> xadded (log ++ evs) s o.
  Proof. intros H. apply in_or_app. left. exact H. Qed.

  (** What the log says about the event that follows it. *)
  Definition xfits (log : list xev) (e : xev) : Prop :=
    match e with
    | XRet (XAdd s o) r => r = RErr (add_answer (cap s) (xmembers log s) o)
    | XRet (XRemove s o) r => r = RErr (remove_answer (xmembers log s) o)
    | XStore s o _ | XDisc s o => xadded log s o
    | _ => True
    end.
  Inductive xgood : list xev -> Prop :=
  | xgood_nil : xgood []
  | xgood_snoc log e : xgood log -> xfits log e -> xgood (log ++ [e]).
  Lemma xgood_split log : xgood log -> forall p e q, log = p ++ e :: q -> xfits p e.
  Proof.
    induction 1 as [|log e0 H IH G]; intros p e q E.
    - destruct p; discriminate.
    - destruct q as [|z q] using rev_ind.
      + apply app_inj_tail in E. destruct E as [-> ->]. exact G.
      + clear IHq. rewrite app_comm_cons, app_assoc in E. apply app_inj_tail in E.
        destruct E as [E _]. eapply IH. exact E.
  Qed.

  Record xcok (log : list xev) (s : addr) (x : vcell) : Prop := {
    xc_len : length (x_slots x) = cap s;
    xc_repr : exists r, x_slots x = map Some (xmembers log s) ++ r;
    xc_cnt : x_cnt x = length (xmembers log s);
    xc_nodup : NoDup (xmembers log s);
    xc_added : forall o, In (Some o) (x_slots x) -> xadded log s o;
    xc_val : in_ity (ty s) (x_val x)
  }.
  Record xinv (w : vnet) : Prop := {
    xi_cell : forall s, xcok (x_log w) s (x_cell w s);
    xi_good : xgood (x_log w)
  }.

  Lemma zero_in t : ity_ok t -> in_ity t 0.
  Proof.
    intros H. unfold in_ity, lo, hi. destruct (pow_half t H). pose proof (ValuesProofs1.pow_pos t H). destruct (i_signed t); lia.
  Qed.
  Lemma xinv_fresh m : xinv (xfresh Max m).
  Proof.
    unfold xfresh. split; cbn [x_cell x_log]; [|constructor].
    intros s. split; cbn [x_slots x_cnt x_val]; unfold fresh_slots.
    - apply repeat_length.
    - exists (repeat None (cap s)). reflexivity.
    - reflexivity.
    - constructor.
    - intros o H. apply repeat_spec in H. discriminate.
    - apply zero_in, T.
  Qed.

  Lemma xcok_le log s x : xcok log s x -> (x_cnt x <= cap s)%nat.
  Proof. intros [H1 [r H2] H3 _ _ _]. rewrite H3, <- H1, H2, app_length, map_length. lia. Qed.
  Lemma xcok_nz log s x : xcok log s x -> nzs (x_slots x) (x_cnt x).
  Proof. intros [H1 [r H2] H3 _ _ _]. exists (xmembers log s), r. split; [exact H2|]. symmetry. exact H3. Qed.

  Record xext (w w' : vnet) : Prop := {
    xe_inv : xinv w';
    xe_nz : forall s n, nzs (x_slots (x_cell w s)) n -> nzs (x_slots (x_cell w' s)) n;
    xe_log : exists evs, x_log w' = x_log w ++ evs
  }.
  Lemma xext_refl w : xinv w -> xext w w.
  Proof. intros H. split; [exact H|tauto|]. exists []. rewrite app_nil_r. reflexivity. Qed.
  Lemma xext_trans a b c : xext a b -> xext b c -> xext a c.
  Proof.
    intros [A1 A3 [e1 A4]] [B1 B3 [e2 B4]]. split; [exact B1|intros s n H; apply B3, A3, H|].
    exists (e1 ++ e2). rewrite B4, A4, app_assoc. reflexivity.
  Qed.

  (** Replacing one cell and logging one event. *)
  Lemma xext_put w m s x e : xinv w -> xfits (x_log w) e ->
    (forall a, a <> s -> xmembers (x_log w ++ [e]) a = xmembers (x_log w) a) ->
    (forall n, nzs (x_slots (x_cell w s)) n -> nzs (x_slots x) n) ->
    xcok (x_log w ++ [e]) s x ->
    xext w (xnote (xplace (VN (x_cell w) m (x_log w)) s x) e).
  Proof.
    intros [I1 I2] F R N C. unfold xnote, xplace. split; cbn [x_cell x_log].
    - split; cbn [x_cell x_log]; [|constructor; assumption].
      intros a. destruct (Pos.eqb_spec a s) as [->|NE]; [exact C|].
      destruct (I1 a) as [H1 H2 H3 H4 H5 H6]. split; rewrite ?(R a NE); try assumption.
      intros o H. apply xadded_app, H5, H.
    - intros a n H. destruct (Pos.eqb_spec a s) as [->|NE]; [apply N, H|exact H].
    - exists [e]. reflexivity.
  Qed.

  (** An event that leaves the cells alone. *)
  Lemma xext_plain w m e : xinv w -> xfits (x_log w) e ->
    xmember_step (xmembers (x_log w)) e = xmembers (x_log w) ->
    xext w (xnote (VN (x_cell w) m (x_log w)) e).
  Proof.
    intros [I1 I2] F R. unfold xnote. split; cbn [x_cell x_log].
    - split; cbn [x_cell x_log]; [|constructor; assumption].
      intros a. destruct (I1 a) as [H1 H2 H3 H4 H5 H6].
      split; rewrite ?xmembers_snoc, ?R; try assumption. intros o H. apply xadded_app, H5, H.
    - tauto.
    - exists [e]. reflexivity.
  Qed.
  Lemma xext_plain' w e : xinv w -> xfits (x_log w) e ->
    xmember_step (xmembers (x_log w)) e = xmembers (x_log w) -> xext w (xnote w e).
  Proof. destruct w as [cl m l]. exact (xext_plain (VN cl m l) m e). Qed.

  Lemma at_same {A} (f : addr -> A) s x : (if Pos.eqb s s then x else f s) = x.
  Proof. rewrite Pos.eqb_refl. reflexivity. Qed.
  Lemma at_other {A} (f : addr -> A) a s x : a <> s -> (if Pos.eqb a s then x else f a) = f a.
  Proof. intros N. destruct (Pos.eqb_spec a s); congruence. Qed.

  Lemma xinv_add w s o a n e :
    xinv w -> add_observer (Max s) (x_slots (x_cell w s)) (x_cnt (x_cell w s)) o = Ok (a, n, e) ->
    xext w (xnote (xplace w s (VCell (x_val (x_cell w s)) a n)) (XRet (XAdd s o) (RErr e))).
  Proof.
    intros I E. destruct w as [cl mi lg]. pose proof (xi_cell _ I s) as [H1 [r H2] H3 H4 H5 H6].
    cbn [x_cell x_log] in *.
    set (l := xmembers lg s) in *.
    destruct (add_repr (Max s) l r o) as (r' & E1 & E2 & E3); [rewrite <- H2; exact H1|].
    rewrite H2, H3, E1 in E. inversion E; subst a n e. clear E E1.
    set (x := add_answer (cap s) l o) in *.
    assert (EM : xmembers (lg ++ [XRet (XAdd s o) (RErr x)]) s = match x with ok => l ++ [o] | _ => l end).
    { rewrite xmembers_snoc. cbn [xmember_step]. destruct x; try reflexivity. apply at_same. }
    apply (xext_put (VN cl mi lg) mi); cbn [x_cell x_log]; [exact I|reflexivity| | |].
    - intros a N. rewrite xmembers_snoc. cbn [xmember_step]. destruct x; try reflexivity. apply at_other, N.
    - intros k Hk. rewrite H2 in Hk. cbn [x_slots].
      destruct x eqn:Er; try (rewrite <- (E3 ltac:(discriminate)); exact Hk).
      destruct (E2 eq_refl) as [y Ey]. subst r. eapply nzs_write. exact Hk.
    - split; cbn [x_slots x_cnt x_val]; rewrite ?EM.
      + rewrite <- H1, H2. destruct x eqn:Er; try (rewrite <- (E3 ltac:(discriminate)); reflexivity).
        destruct (E2 eq_refl) as [y Ey]. subst r. rewrite !map_app, !app_length. cbn. lia.
      + exists r'. reflexivity.
      + reflexivity.
      + destruct x eqn:Er; try exact H4. apply NoDup_end; [exact H4|].
        unfold x, add_answer in Er. destruct (cap s <=? length l)%nat; [discriminate|].
        destruct (in_dec Pos.eq_dec o l); [discriminate|assumption].
      + intros y Hy.
        assert (HC : In (Some y) (x_slots (cl s)) \/ (x = ok /\ y = o)).
        { rewrite H2. destruct x eqn:Er;
          try (rewrite <- (E3 ltac:(discriminate)) in Hy; left; exact Hy).
          destruct (E2 eq_refl) as [z Ez]. subst r.
          rewrite !in_app_iff, map_app, in_app_iff in *. cbn in *.
          destruct Hy as [[Hy|[Hy|[]]]|Hy]; [tauto| |tauto]. inversion Hy. tauto. }
        unfold xadded. rewrite in_app_iff. destruct HC as [HC|[HC ->]].
        * left. apply H5, HC.
        * right. left. rewrite HC. reflexivity.
      + exact H6.
  Qed.

  Lemma xinv_remove w s o a n e :
    xinv w -> remove_observer (Max s) (x_slots (x_cell w s)) (x_cnt (x_cell w s)) o = Ok (a, n, e) ->
    xext w (xnote (xplace w s (VCell (x_val (x_cell w s)) a n)) (XRet (XRemove s o) (RErr e))).
  Proof.
    intros I E. destruct w as [cl mi lg]. pose proof (xi_cell _ I s) as C. pose proof (xcok_le _ _ _ C) as HLE.
    destruct C as [H1 [r H2] H3 H4 H5 H6]. cbn [x_cell x_log] in *.
    set (l := xmembers lg s) in *.
    destruct (remove_repr (Max s) l r o) as (g & E1 & E2 & E3); [lia|].
    rewrite H2, H3, E1 in E. inversion E; subst a n e. clear E E1.
    set (x := remove_answer l o) in *.
    assert (EM : xmembers (lg ++ [XRet (XRemove s o) (RErr x)]) s = remove Pos.eq_dec o l).
    { rewrite xmembers_snoc. cbn [xmember_step]. unfold x, remove_answer.
      destruct (in_dec Pos.eq_dec o l) as [H|H]; [apply at_same|].
      symmetry. apply remove_notin. exact H. }
    apply (xext_put (VN cl mi lg) mi); cbn [x_cell x_log]; [exact I|reflexivity| | |].
    - intros a N. rewrite xmembers_snoc. cbn [xmember_step]. destruct x; try reflexivity. apply at_other, N.
    - intros k Hk. rewrite H2 in Hk. cbn [x_slots]. eapply nzs_replace; [|exact Hk]. rewrite app_length. lia.
    - split; cbn [x_slots x_cnt x_val]; rewrite ?EM.
      + rewrite <- H1, H2. rewrite !app_length, !map_length, app_length. lia.
      + exists (map Some g ++ r). rewrite map_app, app_assoc. reflexivity.
      + reflexivity.
      + apply NoDup_rm. exact H4.
      + intros y Hy. unfold xadded. rewrite in_app_iff. left. apply H5. rewrite H2.
        rewrite in_app_iff in *. destruct Hy as [Hy|Hy]; [left|tauto].
        apply in_map_iff in Hy. destruct Hy as (z & Hz & Hy). inversion Hz; subst z.
        apply in_map. rewrite in_app_iff in Hy. destruct Hy as [Hy|Hy].
        * apply in_remove in Hy. tauto.
        * apply E3, Hy.
      + exact H6.
  Qed.

  Lemma xinv_apply w s o : xinv w ->
    xext w (xnote (xplace w s (VCell (apply_atomic (ty s) (x_val (x_cell w s)) o) (x_slots (x_cell w s))
                                     (x_cnt (x_cell w s)))) (XApplied s o)).
  Proof.
    intros I. destruct w as [cl mi lg]. pose proof (xi_cell _ I s) as [H1 H2 H3 H4 H5 H6]. cbn [x_cell x_log] in *.
    apply (xext_put (VN cl mi lg) mi); cbn [x_cell x_log]; [exact I|exact Logic.I| | |].
    - intros a N. rewrite xmembers_snoc. reflexivity.
    - tauto.
    - split; cbn [x_slots x_cnt x_val]; rewrite ?xmembers_snoc; try assumption.
      + intros x Hx. apply xadded_app, H5, Hx.
      + rewrite apply_math by apply T. apply conv_range, T.
  Qed.

  Lemma xinv_cleared w s : xinv w ->
    xext w (xnote (xplace w s (VCell (x_val (x_cell w s)) (x_slots (x_cell w s)) 0)) (XRet (XClear s) RUnit)).
  Proof.
    intros I. destruct w as [cl mi lg]. pose proof (xi_cell _ I s) as [H1 H2 H3 H4 H5 H6]. cbn [x_cell x_log] in *.
    assert (EM : xmembers (lg ++ [XRet (XClear s) RUnit]) s = []).
    { rewrite xmembers_snoc. cbn [xmember_step]. apply at_same. }
    apply (xext_put (VN cl mi lg) mi); cbn [x_cell x_log]; [exact I|exact Logic.I| | |].
    - intros a N. rewrite xmembers_snoc. cbn [xmember_step]. apply at_other, N.
    - tauto.
    - split; cbn [x_slots x_cnt x_val]; rewrite ?EM.
      + exact H1.
      + exists (x_slots (cl s)). reflexivity.
      + reflexivity.
      + constructor.
      + intros x Hx. apply xadded_app, H5, Hx.
      + exact H6.
  Qed.

  Variable on_update : list xev -> addr -> Z -> xbody.
  Variable on_disc : list xev -> addr -> xbody.
  Notation xrun := (xrun ty Max on_update on_disc).

  Definition alltame : Prop :=
    (forall log o n, xtame ty (on_update log o n)) /\ (forall log o, xtame ty (on_disc log o)).
  Definition xsafe (P : Prop) (w : vnet) (x : res vnet) : Prop :=
    match x with Ok w' => xext w w' | UB => ~ (alltame /\ P) | Fuel => True end.
  Definition xsafe2 {R} (P : Prop) (w : vnet) (x : res (vnet * R)) : Prop :=
    match x with Ok (w', _) => xext w w' | UB => ~ (alltame /\ P) | Fuel => True end.

  Section Step.
    Variable step : vnet -> xcall -> res (vnet * vres).
    Hypothesis step_safe : forall w c, xinv w -> xsafe2 (xtame_call ty c) w (step w c).

    Lemma xbody_safe b : forall w, xinv w -> xsafe (xtame ty b) w (xbody_run step b w).
    Proof.
      induction b as [|c k IH]; intros w I; cbn [xbody_run].
      - apply xext_refl. exact I.
      - pose proof (step_safe w c I) as HS. destruct (step w c) as [[w' e]| |]; cbn [bind xsafe xsafe2] in *.
        + specialize (IH e w' (xe_inv _ _ HS)). destruct (xbody_run step (k e) w'); cbn [xsafe] in *.
          * eapply xext_trans; eassumption.
          * intros [A B]. apply IH. split; [exact A|]. inversion B; subst. auto.
          * exact Logic.I.
        + intros [A B]. apply HS. split; [exact A|]. inversion B; subst. assumption.
        + exact Logic.I.
    Qed.

    Lemma xround_safe enter cb s i n w :
      (forall w o, xinv w -> In (Some o) (x_slots (x_cell w s)) -> xext w (enter w o)) ->
      (alltame -> forall log o, xtame ty (cb log o)) ->
      xinv w -> nzs (x_slots (x_cell w s)) n -> (i < n)%nat -> xsafe True w (xround enter cb step s i w).
    Proof.
      intros HE HC I N L. destruct (nzs_slot _ n i N L) as (o & S1 & S2).
      unfold xround. rewrite S1. cbn [bind].
      pose proof (HE w o I S2) as X.
      pose proof (xbody_safe (cb (x_log w) o) _ (xe_inv _ _ X)) as B.
      destruct (xbody_run step (cb (x_log w) o) (enter w o)); cbn [xsafe] in *.
      - eapply xext_trans; eassumption.
      - intros [A _]. apply B. split; [exact A|]. apply HC, A.
      - exact Logic.I.
    Qed.

    Lemma xloop_safe f s n :
      (forall i w, xinv w -> nzs (x_slots (x_cell w s)) n -> (i < n)%nat -> xsafe True w (f i w)) ->
      forall k i w, xinv w -> nzs (x_slots (x_cell w s)) n -> (i + k <= n)%nat -> xsafe True w (xloop f i k w).
    Proof.
      intros Hf. induction k as [|k IH]; intros i w I N L; cbn [xloop].
      - apply xext_refl. exact I.
      - pose proof (Hf i w I N ltac:(lia)) as HS. destruct (f i w) as [w'| |]; cbn [bind] in *; try exact HS.
        assert (S' := IH (S i) w' (xe_inv _ _ HS) (xe_nz _ _ HS s n N) ltac:(lia)).
        destruct (xloop f (S i) k w'); cbn in *; try exact S'.
        eapply xext_trans; eassumption.
    Qed.

    Lemma xnotify_safe s v w : xinv w -> xsafe2 True w (xnotify Max on_update step s v w).
    Proof.
      intros I. unfold xnotify. pose proof (xi_cell w I s) as C.
      replace (cap s <? x_cnt (x_cell w s))%nat with false by (pose proof (xcok_le _ _ _ C); lia).
      match goal with |- context[xloop ?f _ _ _] => set (g := f) end.
      assert (L : xsafe True w (xloop g 0 (x_cnt (x_cell w s)) w)).
      { apply (xloop_safe g s (x_cnt (x_cell w s))); [|exact I|exact (xcok_nz _ _ _ C)|lia].
        intros i w0 I0 N0 L0. apply (xround_safe _ _ s i (x_cnt (x_cell w s))); try assumption.
        - intros w1 o I1 S1. apply xext_plain; [exact I1| |reflexivity]. apply (xc_added _ _ _ (xi_cell w1 I1 s)), S1.
        - intros A log o. apply (proj1 A). }
      destruct (xloop g 0 (x_cnt (x_cell w s)) w); cbn in *; exact L.
    Qed.
  End Step.

  Lemma xrun_safe f : forall w c, xinv w -> xsafe2 (xtame_call ty c) w (xrun f w c).
  Proof.
    induction f as [|f IH]; intros w c I; [exact Logic.I|].
    cbn [VNetModel.xrun]. destruct c as [s o|s o|s|s n|s o|s].
    - destruct (add_observer (Max s) (x_slots (x_cell w s)) (x_cnt (x_cell w s)) o) as [[[a n] e]| |] eqn:E; cbn [bind].
      + apply (xinv_add w s o a n e I E).
      + exfalso. pose proof (xi_cell w I s) as [H1 [r H2] H3 _ _ _]. rewrite H2, H3 in E.
        destruct (add_repr (Max s) (xmembers (x_log w) s) r o) as (r' & E1 & _); [rewrite <- H2; exact H1|].
        rewrite E1 in E. discriminate.
      + exact Logic.I.
    - destruct (remove_observer (Max s) (x_slots (x_cell w s)) (x_cnt (x_cell w s)) o) as [[[a n] e]| |] eqn:E; cbn [bind].
      + apply (xinv_remove w s o a n e I E).
      + exfalso. pose proof (xi_cell w I s) as C. pose proof (xcok_le _ _ _ C) as LE.
        destruct C as [H1 [r H2] H3 _ _ _]. rewrite H2, H3 in E.
        destruct (remove_repr (Max s) (xmembers (x_log w) s) r o) as (g & E1 & _); [lia|].
        rewrite E1 in E. discriminate.
      + exact Logic.I.
    - match goal with |- context[xloop ?f _ _ _] => set (g := f) end.
      assert (L : xsafe True w (xloop g 0 (x_cnt (x_cell w s)) w)).
      { apply (xloop_safe (xrun f) IH g s (x_cnt (x_cell w s)));
          [|exact I|exact (xcok_nz _ _ _ (xi_cell w I s))|lia].
        intros i w0 I0 N0 L0. apply (xround_safe (xrun f) IH _ _ s i (x_cnt (x_cell w s))); try assumption.
        - intros w1 o I1 S1. apply xext_plain'; [exact I1| |reflexivity].
          apply (xc_added _ _ _ (xi_cell w1 I1 s)), S1.
        - intros A log o. apply (proj2 A). }
      destruct (xloop g 0 (x_cnt (x_cell w s)) w) as [w1| |]; cbn [bind xsafe xsafe2 xtame_call] in *; try exact L.
      eapply xext_trans; [exact L|]. apply xinv_cleared. apply L.
    - pose proof (xnotify_safe (xrun f) IH s (conv (ty s) n) w I) as L.
      destruct (xnotify Max on_update (xrun f) s (conv (ty s) n) w) as [[w1 e]| |]; cbn [bind xsafe2 xtame_call] in *; try exact L.
      eapply xext_trans; [exact L|]. apply xext_plain'; [apply L|exact Logic.I|reflexivity].
    - destruct (published (ty s) (x_val (x_cell w s)) o) as [p| |] eqn:EP; cbn [bind].
      + pose proof (xinv_apply w s o I) as A. set (w0 := xnote _ (XApplied s o)) in *.
        pose proof (xnotify_safe (xrun f) IH s p w0 (xe_inv _ _ A)) as L.
        destruct (xnotify Max on_update (xrun f) s p w0) as [[w1 e]| |]; cbn [bind xsafe2 xtame_call] in *.
        * eapply xext_trans; [exact A|]. eapply xext_trans; [exact L|].
          apply xext_plain'; [apply L|exact Logic.I|reflexivity].
        * intros [X Y]. apply L. split; [exact X|exact Logic.I].
        * exact Logic.I.
      + cbn [xsafe2 xtame_call]. intros [_ Y].
        apply (Y (x_val (x_cell w s))); [apply (xc_val _ _ _ (xi_cell w I s))|].
        apply (proj1 (published_ub (ty s) (x_val (x_cell w s)) o)). exact EP.
      + exact Logic.I.
    - cbn [bind xsafe2]. apply xext_plain'; [exact I|exact Logic.I|reflexivity].
  Qed.

  Lemma xrun_ext f w c w' r : xinv w -> xrun f w c = Ok (w', r) -> xext w w'.
  Proof. intros I E. pose proof (xrun_safe f w c I) as P. rewrite E in P. exact P. Qed.

  Lemma xrun_all_safe f l : forall w, xinv w ->
    xsafe (Forall (xtame_call ty) l) w (xrun_all ty Max on_update on_disc f w l).
  Proof.
    induction l as [|c l IH]; intros w I; cbn [xrun_all].
    - apply xext_refl, I.
    - pose proof (xrun_safe f w c I) as X.
      destruct (xrun f w c) as [[w1 e]| |]; cbn [bind xsafe xsafe2] in *.
      + specialize (IH w1 (xe_inv _ _ X)).
        destruct (xrun_all ty Max on_update on_disc f w1 l); cbn [xsafe] in *.
        * eapply xext_trans; eassumption.
        * intros [A B]. apply IH. split; [exact A|]. inversion B; assumption.
        * exact Logic.I.
      + intros [A B]. apply X. split; [exact A|]. inversion B; assumption.
      + exact Logic.I.
  Qed.

  Lemma xreach_inv w : xreaches ty Max on_update on_disc w -> xinv w.
  Proof.
    intros (m & f & l & E). pose proof (xrun_all_safe f l _ (xinv_fresh m)) as X. rewrite E in X. exact (xe_inv _ _ X).
  Qed.
End Inv.
