(** Value observables whose callbacks operate on them. *)
From Verif Require Export ValuesProofs3.

Section Tame.
  Variable t : ity.
  Variable Max : Z.
  Hypothesis T : ity_ok t.
  Variable on_update : list vev -> addr -> Z -> vbody.
  Variable on_disc : list vev -> addr -> vbody.
  Hypothesis TU : forall log o n, tame_body t (on_update log o n).
  Hypothesis TD : forall log o, tame_body t (on_disc log o).
  Notation vrun := (vrun t Max on_update on_disc).
  Notation vinv := (vinv t Max).
  Notation vext := (vext t Max).

  Definition fine (w : vworld) (x : res vworld) : Prop :=
    match x with Ok w' => vext w w' | UB => False | Fuel => True end.
  Definition fine2 {R} (w : vworld) (x : res (vworld * R)) : Prop :=
    match x with Ok (w', _) => vext w w' | UB => False | Fuel => True end.

  Section Step.
    Variable step : vworld -> vcall -> res (vworld * vres).
    Hypothesis step_fine : forall w c, vinv w -> tame_call t c -> fine2 w (step w c).

    Lemma body_fine b : tame_body t b -> forall w, vinv w -> fine w (vbody_run step b w).
    Proof.
      induction 1 as [|c k TC TK IH]; intros w I; cbn [vbody_run].
      - apply vext_refl. exact I.
      - pose proof (step_fine w c I TC) as HS. destruct (step w c) as [[w' e]| |]; cbn [bind] in *; try exact HS.
        specialize (IH e w' (ve_inv _ _ _ _ HS)). destruct (vbody_run step (k e) w'); cbn in *; try exact IH.
        eapply vext_trans; eassumption.
    Qed.

    Lemma disc_fine i n w : vinv w -> nzs (v_slots w) n -> (i < n)%nat -> fine w (vcall_disc on_disc step i w).
    Proof.
      intros I N L. destruct (nzs_slot _ n i N L) as (o & S1 & S2).
      unfold vcall_disc. rewrite S1. cbn [bind].
      assert (X : vext w (vemit w (VDisc o))).
      { replace w with (VW (v_val w) (v_slots w) (v_cnt w) (v_mirror w) (v_log w)) at 2 by (destruct w; reflexivity).
        apply vemit_plain; [exact I| |reflexivity|reflexivity]. apply (vi_added t Max w I), S2. }
      pose proof (body_fine _ (TD (v_log w) o) _ (ve_inv _ _ _ _ X)) as B.
      destruct (vbody_run step (on_disc (v_log w) o) (vemit w (VDisc o))); cbn in *; try exact B.
      eapply vext_trans; eassumption.
    Qed.

    Lemma data_fine v i n w : vinv w -> nzs (v_slots w) n -> (i < n)%nat ->
      fine w (vcall_data on_update step v i w).
    Proof.
      intros I N L. destruct (nzs_slot _ n i N L) as (o & S1 & S2).
      unfold vcall_data. rewrite S1. cbn [bind].
      set (w0 := vemit _ _).
      assert (X : vext w w0).
      { apply vemit_plain; [exact I| |reflexivity|reflexivity]. apply (vi_added t Max w I), S2. }
      pose proof (body_fine _ (TU (v_log w) o v) _ (ve_inv _ _ _ _ X)) as B.
      destruct (vbody_run step (on_update (v_log w) o v) w0); cbn in *; try exact B.
      eapply vext_trans; eassumption.
    Qed.

    Lemma loop_fine f n : (forall i w, vinv w -> nzs (v_slots w) n -> (i < n)%nat -> fine w (f i w)) ->
      forall k i w, vinv w -> nzs (v_slots w) n -> (i + k <= n)%nat -> fine w (vloop f i k w).
    Proof.
      intros Hf. induction k as [|k IH]; intros i w I N L; cbn [vloop].
      - apply vext_refl. exact I.
      - pose proof (Hf i w I N ltac:(lia)) as HS. destruct (f i w) as [w'| |]; cbn [bind] in *; try exact HS.
        assert (S' := IH (S i) w' (ve_inv _ _ _ _ HS) (ve_nz _ _ _ _ HS n N) ltac:(lia)).
        destruct (vloop f (S i) k w'); cbn in *; try exact S'.
        eapply vext_trans; eassumption.
    Qed.

    Lemma notify_fine v w : vinv w -> fine2 w (vnotify Max on_update step v w).
    Proof.
      intros I. unfold vnotify.
      replace (max_observers Max <? v_cnt w)%nat with false by (pose proof (vinv_le t Max w I); lia).
      pose proof (loop_fine (vcall_data on_update step v) (v_cnt w)
                    (fun i w0 I0 N0 L0 => data_fine v i (v_cnt w) w0 I0 N0 L0)
                    (v_cnt w) 0 w I (vinv_nz t Max w I) ltac:(lia)) as L.
      destruct (vloop (vcall_data on_update step v) 0 (v_cnt w) w); cbn in *; exact L.
    Qed.
  End Step.

  Lemma vinv_in w : vinv w -> in_ity t (v_val w).
  Proof. intros I. rewrite (vi_val t Max w I). apply conv_range, T. Qed.

  Lemma vrun_fine f : forall w c, vinv w -> tame_call t c -> fine2 w (vrun f w c).
  Proof.
    induction f as [|f IH]; intros w c I TC; [exact Logic.I|].
    pose proof (vrun_safe t Max T on_update on_disc (S f) w c I) as SF.
    destruct (vrun (S f) w c) as [[w' r]| |] eqn:E; cbn [vsafe2 fine2] in *; [exact SF| |exact Logic.I].
    cbn [ValuesModel.vrun] in E. destruct c as [o|o| |n|o].
    - destruct (vi_repr t Max w I) as [r H2]. rewrite H2, (vi_cnt t Max w I) in E.
      destruct (add_repr Max (vmembers (v_log w)) r o) as (r' & E1 & _); [rewrite <- H2; apply (vi_len t Max w I)|].
      rewrite E1 in E. discriminate.
    - destruct (vi_repr t Max w I) as [r H2]. pose proof (vinv_le t Max w I). rewrite H2, (vi_cnt t Max w I) in E.
      destruct (remove_repr Max (vmembers (v_log w)) r o) as (g & E1 & _); [rewrite <- (vi_cnt t Max w I); assumption|].
      rewrite E1 in E. discriminate.
    - pose proof (loop_fine (vrun f) IH (vcall_disc on_disc (vrun f)) (v_cnt w)
                    (fun i w0 I0 N0 L0 => disc_fine (vrun f) IH i (v_cnt w) w0 I0 N0 L0)
                    (v_cnt w) 0 w I (vinv_nz t Max w I) ltac:(lia)) as L.
      destruct (vloop (vcall_disc on_disc (vrun f)) 0 (v_cnt w) w) as [w1| |]; cbn [bind fine] in *; try discriminate. exact L.
    - pose proof (notify_fine (vrun f) IH (conv t n) w I) as L.
      destruct (vnotify Max on_update (vrun f) (conv t n) w) as [[w1 e]| |]; cbn [bind fine2] in *; try discriminate. exact L.
    - destruct (published t (v_val w) o) as [p| |] eqn:EP; cbn [bind] in E; [| |discriminate].
      + pose proof (vinv_apply t Max T w o I) as A. set (w0 := vemit _ (Applied o)) in *.
        pose proof (notify_fine (vrun f) IH p w0 (ve_inv _ _ _ _ A)) as L.
        destruct (vnotify Max on_update (vrun f) p w0) as [[w1 e]| |]; cbn [bind fine2] in *; try discriminate. exact L.
      + apply (TC (v_val w) (vinv_in w I)). apply (proj1 (published_ub t (v_val w) o)). exact EP.
  Qed.

  Lemma run_all_fine f calls : Forall (tame_call t) calls -> forall w, vinv w ->
    vrun_all t Max on_update on_disc f w calls <> UB.
  Proof.
    induction 1 as [|c calls TC _ IH]; intros w I; cbn [vrun_all]; [discriminate|].
    pose proof (vrun_fine f w c I TC) as HS.
    destruct (vrun f w c) as [[w1 r]| |]; cbn [bind fine2] in *; [apply IH, HS|contradiction|discriminate].
  Qed.
End Tame.

(** A callback that assigns every time it runs. *)
Lemma endless t Max upd disc (HU : forall log o n, exists v k, upd log o n = VDo (VOp (Assign v)) k) :
  ity_ok t -> forall f w op, vinv t Max w -> vmembers (v_log w) <> [] -> ~ overflows t (v_val w) op ->
  vrun t Max upd disc f w (VOp op) = Fuel.
Proof.
  intros T. induction f as [|f IH]; intros w op I NE NO; [reflexivity|]. cbn [vrun].
  destruct (published_ub t (v_val w) op) as [U1 U2].
  destruct (published t (v_val w) op) as [p| |] eqn:EP; cbn [bind]; [|tauto|congruence].
  pose proof (vinv_apply t Max T w op I) as A. set (w0 := vemit _ (Applied op)) in *.
  assert (M0 : vmembers (v_log w0) = vmembers (v_log w)) by (unfold w0; cbn [vemit v_log]; rewrite vmembers_snoc; reflexivity).
  unfold vnotify. replace (max_observers Max <? v_cnt w0)%nat with false
    by (pose proof (vinv_le t Max w0 (ve_inv _ _ _ _ A)); lia).
  destruct (vi_repr t Max w0 (ve_inv _ _ _ _ A)) as [r H2]. pose proof (vi_cnt t Max w0 (ve_inv _ _ _ _ A)) as H3.
  rewrite M0 in *. destruct (vmembers (v_log w)) as [|o l] eqn:EM; [congruence|].
  rewrite H3. cbn [length vloop]. unfold vcall_data at 1. rewrite H2. cbn [map app slot nth_error bind].
  unfold slot. cbn [nth_error bind].
  destruct (HU (v_log w0) o p) as (v & k & ->). cbn [vbody_run].
  match goal with |- context [vrun t Max upd disc f ?x _] => set (w1 := x) end.
  assert (X : vext t Max w0 w1).
  { replace w1 with (vemit (VW (v_val w0) (v_slots w0) (v_cnt w0) (set_mirror (v_mirror w0) o p) (v_log w0)) (Store o p))
      by (unfold w1; rewrite H2; reflexivity).
    apply vemit_plain; [apply A| |reflexivity|reflexivity]. cbn [vgood_ev].
    apply (vi_added t Max w0 (ve_inv _ _ _ _ A)). rewrite H2. left. reflexivity. }
  rewrite IH; [reflexivity|apply X| |].
  - unfold w1. cbn [vemit v_log]. rewrite vmembers_snoc. cbn [vmember_step]. rewrite M0. discriminate.
  - intros [_ []].
Qed.

Lemma vloop_app f a : forall i b w, vloop f i (a + b) w = (w1 <- vloop f i a w ;; vloop f (i + a) b w1).
Proof.
  induction a as [|a IH]; intros i b w; cbn [vloop Nat.add bind].
  - rewrite Nat.add_0_r. reflexivity.
  - destruct (f i w) as [w'| |]; cbn [bind]; [|reflexivity|reflexivity].
    rewrite IH. replace (S i + a)%nat with (i + S a)%nat by lia. reflexivity.
Qed.

(** A stretch of the loop in which no callback does anything. *)
Lemma silent_loop upd step n l : forall p r w, v_slots w = map Some (p ++ l) ++ r ->
  (forall log o, In o l -> upd log o n = VReturn) ->
  vloop (vcall_data upd step n) (length p) (length l) w
  = Ok (VW (v_val w) (v_slots w) (v_cnt w) (dv_store_all l n (v_mirror w))
           (v_log w ++ map (fun o => Store o n) l)).
Proof.
  induction l as [|o l IH]; intros p r w Hs Q; cbn [length vloop].
  - cbn. rewrite app_nil_r. destruct w; reflexivity.
  - unfold vcall_data at 1. rewrite Hs.
    replace (map Some (p ++ o :: l) ++ r) with (map Some p ++ Some o :: map Some l ++ r)
      by (rewrite map_app, <- app_assoc; reflexivity).
    rewrite <- (map_length (@Some positive) p) at 1. rewrite slot_app. cbn [bind].
    rewrite Q by (left; reflexivity). cbn [vbody_run bind].
    match goal with |- vloop _ _ _ ?w1 = _ => assert (H := IH (p ++ [o]) r w1) end.
    rewrite app_length in H. cbn [length] in H. replace (length p + 1)%nat with (S (length p)) in H by lia.
    rewrite H; [| |intros; apply Q; right; assumption].
    + cbn [vemit v_slots v_val v_cnt v_mirror v_log map dv_store_all].
      rewrite <- app_assoc. reflexivity.
    + cbn [vemit v_slots]; rewrite <- app_assoc; cbn [app]; rewrite map_app, <- app_assoc; reflexivity.
Qed.

Lemma NoDup_app_disj {A} (l1 l2 : list A) x : NoDup (l1 ++ l2) -> In x l1 -> In x l2 -> False.
Proof.
  induction l1 as [|y l1 IH]; cbn [app]; intros ND H1 H2; [destruct H1|].
  inversion ND; subst. destruct H1 as [->|H1]; [apply H3, in_app_iff; right; exact H2|exact (IH H4 H1 H2)].
Qed.

Lemma limiter_run t Max disc f w op p a c pre post :
  ity_ok t -> vinv t Max w -> in_ity t c -> vmembers (v_log w) = pre ++ a :: post ->
  published t (v_val w) op = Ok p -> p <> c ->
  exists w', vrun t Max (limiter a c) disc (S (S f)) w (VOp op) = Ok (w', RVal p) /\
    v_val w' = c /\
    (forall o, In o (pre ++ [a]) -> v_mirror w' o = c) /\
    (forall o, In o post -> v_mirror w' o = p) /\
    (forall o, ~ In o (pre ++ a :: post) -> v_mirror w' o = v_mirror w o) /\
    v_log w' = v_log w ++ Applied op :: map (fun o => Store o p) (pre ++ [a])
                ++ Applied (Assign c) :: map (fun o => Store o c) (pre ++ a :: post)
                ++ VRet (VOp (Assign c)) (RVal c) :: map (fun o => Store o p) post
                ++ [VRet (VOp op) (RVal p)].
Proof.
  intros T I C M EP NE. pose proof (conv_id t c T C) as CC.
  pose proof (vi_nodup _ _ _ I) as ND. rewrite M in ND. apply NoDup_remove in ND. destruct ND as [ND NA].
  assert (NP : forall o, In o pre -> Pos.eqb o a = false).
  { intros o H. apply Pos.eqb_neq. intros ->. apply NA, in_app_iff. left. exact H. }
  assert (NQ : forall o, In o post -> Pos.eqb o a = false).
  { intros o H. apply Pos.eqb_neq. intros ->. apply NA, in_app_iff. right. exact H. }
  destruct (vi_repr _ _ _ I) as [r H2]. pose proof (vi_cnt _ _ _ I) as H3. rewrite M in H2, H3.
  pose proof (vinv_le _ _ _ I) as HLE.
  remember (S f) as sf eqn:Esf. cbn [vrun]. rewrite EP. cbn [bind].
  set (w0 := vemit _ (Applied op)).
  unfold vnotify at 1. change (v_cnt w0) with (v_cnt w).
  replace (max_observers Max <? v_cnt w)%nat with false by lia.
  rewrite H3, app_length. cbn [length].
  rewrite vloop_app.
  pose proof (silent_loop (limiter a c) (vrun t Max (limiter a c) disc sf) p pre []
                (map Some (a :: post) ++ r) w0) as L1.
  cbn [length app] in L1. rewrite L1; clear L1.
  2:{ unfold w0. cbn [vemit v_slots]. rewrite H2, map_app, <- app_assoc. reflexivity. }
  2:{ intros log o H. unfold limiter. rewrite (NP o H). reflexivity. }
  cbn [bind]. cbn [vloop Nat.add].
  set (w1 := VW _ _ _ _ _).
  unfold vcall_data at 1.
  assert (S1 : v_slots w1 = map Some pre ++ Some a :: map Some post ++ r).
  { unfold w1, w0. cbn [vemit v_slots]. rewrite H2, map_app, <- app_assoc. reflexivity. }
  rewrite S1.
  assert (SA : slot (map Some pre ++ Some a :: map Some post ++ r) (length pre) = Ok (Some a))
    by (replace (length pre) with (length (map Some pre)) by apply map_length; apply slot_app).
  rewrite SA. cbn [bind].
  unfold limiter at 2. rewrite Pos.eqb_refl. replace (p =? c) with false by lia. cbn [vbody_run].
  match goal with |- context [vrun t Max (limiter a c) disc sf ?x _] =>
    assert (IN : vrun t Max (limiter a c) disc sf x (VOp (Assign c))
                 = Ok (vemit (VW c (v_slots x) (v_cnt x) (dv_store_all (pre ++ a :: post) c (v_mirror x))
                                 ((v_log x ++ [Applied (Assign c)]) ++ map (fun o => Store o c) (pre ++ a :: post)))
                             (VRet (VOp (Assign c)) (RVal c)), RVal c)); [|rewrite IN; clear IN] end.
  { subst sf. cbn [vrun published bind apply_atomic]. rewrite CC.
    unfold vnotify at 1. cbn [vemit v_cnt].
    change (v_cnt w1) with (v_cnt w). replace (max_observers Max <? v_cnt w)%nat with false by lia.
    rewrite H3.
    match goal with |- context [vloop _ 0 _ ?x] =>
      pose proof (silent_loop (limiter a c) (vrun t Max (limiter a c) disc f) c (pre ++ a :: post) [] r x) as L2 end.
    cbn [length app] in L2. rewrite L2; clear L2.
    - reflexivity.
    - cbn [vemit v_slots]. rewrite map_app, <- app_assoc. reflexivity.
    - intros log o _. unfold limiter. rewrite Z.eqb_refl. destruct (Pos.eqb o a); reflexivity. }
  cbn [bind vbody_run vemit v_slots v_val v_cnt v_mirror v_log].
  match goal with |- context [vloop _ (S (length pre)) _ ?x] =>
    pose proof (silent_loop (limiter a c) (vrun t Max (limiter a c) disc sf) p post (pre ++ [a]) r x) as L3 end.
  replace (length (pre ++ [a])) with (S (length pre)) in L3 by (rewrite app_length; cbn [length]; lia).
  rewrite L3; clear L3.
  2:{ cbn [vemit v_slots]. rewrite <- app_assoc. cbn [app]. rewrite map_app, <- app_assoc. reflexivity. }
  2:{ intros log o H. unfold limiter. rewrite (NQ o H). reflexivity. }
  cbn [bind vemit v_slots v_val v_cnt v_mirror v_log].
  eexists. split; [reflexivity|]. cbn [vemit v_slots v_val v_cnt v_mirror v_log].
  split; [reflexivity|]. split; [|split; [|split]].
  - intros o H. rewrite store_all_out.
    + apply store_all_in. apply in_app_iff in H. apply in_app_iff. destruct H as [H|[->|[]]]; [left; exact H|right; left; reflexivity].
    + intros HP. apply in_app_iff in H. destruct H as [H|[->|[]]].
      * apply (NoDup_app_disj pre post o ND H HP).
      * apply NA, in_app_iff. right. exact HP.
  - intros o H. apply store_all_in, H.
  - intros o H. rewrite store_all_out, store_all_out; [|exact H|].
    + unfold set_mirror. destruct (Pos.eqb_spec o a) as [->|_]; [|].
      * destruct H. apply in_app_iff. right. left. reflexivity.
      * apply store_all_out. intros X. apply H, in_app_iff. left. exact X.
    + intros X. apply H, in_app_iff. right. right. exact X.
  - unfold w1, w0. cbn [vemit v_log]. rewrite !map_app. cbn [map]. rewrite <- !app_assoc. reflexivity.
Qed.

Lemma clearer_run t Max disc f w op p a pre post :
  ity_ok t -> vinv t Max w -> passive_disc disc -> vmembers (v_log w) = pre ++ a :: post ->
  published t (v_val w) op = Ok p ->
  exists w', vrun t Max (clearer a) disc (S (S f)) w (VOp op) = Ok (w', RVal p) /\
    v_cnt w' = O /\
    v_log w' = v_log w ++ Applied op :: map (fun o => Store o p) (pre ++ [a])
                ++ map VDisc (pre ++ a :: post)
                ++ VRet VClear RUnit :: map (fun o => Store o p) post
                ++ [VRet (VOp op) (RVal p)].
Proof.
  intros T I PD M EP.
  pose proof (vi_nodup _ _ _ I) as ND. rewrite M in ND. apply NoDup_remove in ND. destruct ND as [ND NA].
  assert (NP : forall o, In o pre -> Pos.eqb o a = false).
  { intros o H. apply Pos.eqb_neq. intros ->. apply NA, in_app_iff. left. exact H. }
  assert (NQ : forall o, In o post -> Pos.eqb o a = false).
  { intros o H. apply Pos.eqb_neq. intros ->. apply NA, in_app_iff. right. exact H. }
  destruct (vi_repr _ _ _ I) as [r H2]. pose proof (vi_cnt _ _ _ I) as H3. rewrite M in H2, H3.
  pose proof (vinv_le _ _ _ I) as HLE.
  remember (S f) as sf eqn:Esf. cbn [vrun]. rewrite EP. cbn [bind].
  set (w0 := vemit _ (Applied op)).
  unfold vnotify at 1. change (v_cnt w0) with (v_cnt w).
  replace (max_observers Max <? v_cnt w)%nat with false by lia.
  rewrite H3, app_length. cbn [length].
  rewrite vloop_app.
  pose proof (silent_loop (clearer a) (vrun t Max (clearer a) disc sf) p pre []
                (map Some (a :: post) ++ r) w0) as L1.
  cbn [length app] in L1. rewrite L1; clear L1.
  2:{ unfold w0. cbn [vemit v_slots]. rewrite H2, map_app, <- app_assoc. reflexivity. }
  2:{ intros log o H. unfold clearer. rewrite (NP o H). reflexivity. }
  cbn [bind]. cbn [vloop Nat.add].
  set (w1 := VW _ _ _ _ _).
  unfold vcall_data at 1.
  assert (S1 : v_slots w1 = map Some pre ++ Some a :: map Some post ++ r).
  { unfold w1, w0. cbn [vemit v_slots]. rewrite H2, map_app, <- app_assoc. reflexivity. }
  rewrite S1.
  assert (SA : slot (map Some pre ++ Some a :: map Some post ++ r) (length pre) = Ok (Some a))
    by (replace (length pre) with (length (map Some pre)) by apply map_length; apply slot_app).
  rewrite SA. cbn [bind].
  unfold clearer at 2. rewrite Pos.eqb_refl. cbn [vbody_run].
  match goal with |- context [vrun t Max (clearer a) disc sf ?x _] =>
    assert (IN : vrun t Max (clearer a) disc sf x VClear
                 = Ok (vemit (VW (v_val x) (v_slots x) 0 (v_mirror x)
                                 (v_log x ++ map VDisc (pre ++ a :: post)))
                             (VRet VClear RUnit), RUnit)); [|rewrite IN; clear IN] end.
  { subst sf. cbn [vrun bind].
    match goal with |- context [vloop _ 0 _ ?x] =>
      pose proof (pdisc_loop disc PD (vrun t Max (clearer a) disc f) (pre ++ a :: post) [] r x) as L2 end.
    cbn [length app] in L2. cbn [vemit v_cnt] in *. change (v_cnt w1) with (v_cnt w) in *. rewrite H3 in *.
    rewrite L2; clear L2.
    - reflexivity.
    - cbn [vemit v_slots]. rewrite map_app, <- app_assoc. reflexivity. }
  cbn [bind vbody_run vemit v_slots v_val v_cnt v_mirror v_log].
  match goal with |- context [vloop _ (S (length pre)) _ ?x] =>
    pose proof (silent_loop (clearer a) (vrun t Max (clearer a) disc sf) p post (pre ++ [a]) r x) as L3 end.
  replace (length (pre ++ [a])) with (S (length pre)) in L3 by (rewrite app_length; cbn [length]; lia).
  rewrite L3; clear L3.
  2:{ cbn [vemit v_slots]. rewrite <- app_assoc. cbn [app]. rewrite map_app, <- app_assoc. reflexivity. }
  2:{ intros log o H. unfold clearer. rewrite (NQ o H). reflexivity. }
  cbn [bind vemit v_slots v_val v_cnt v_mirror v_log].
  eexists. split; [reflexivity|]. cbn [vemit v_slots v_val v_cnt v_mirror v_log].
  split; [reflexivity|].
  unfold w1, w0. cbn [vemit v_log]. rewrite !map_app. cbn [map]. rewrite <- !app_assoc. reflexivity.
Qed.
