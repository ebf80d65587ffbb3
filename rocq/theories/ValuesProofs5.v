(** The dynamic value observable with callbacks that use it. *)
From Verif Require Export ValuesProofs4.

Definition ngrow (evs : list vev) : nat := length (filter grows evs).
Lemma ngrow_app l1 l2 : ngrow (l1 ++ l2) = (ngrow l1 + ngrow l2)%nat.
Proof. unfold ngrow. rewrite filter_app, app_length. reflexivity. Qed.
Lemma ngrow_none evs : ngrow evs = O -> forall e, In e evs -> grows e = false.
Proof.
  unfold ngrow. intros H e HI. destruct (grows e) eqn:G; [|reflexivity]. exfalso.
  assert (X : In e (filter grows evs)) by (apply filter_In; split; assumption).
  destruct (filter grows evs); [destruct X|discriminate].
Qed.

Section Dc.
  Variable t : ity.
  Variable upd : list vev -> addr -> Z -> vbody.
  Variable disc : list vev -> addr -> vbody.
  Notation dcrun := (dcrun t upd disc).

  (** The log grows, and the version counts the growth events. *)
  Definition adds (w w' : dvc) : Prop :=
    exists evs, dc_log w' = dc_log w ++ evs /\ dc_ver w' = (dc_ver w + ngrow evs)%nat.
  Lemma adds_refl w : adds w w.
  Proof. exists []. rewrite app_nil_r. split; [reflexivity|]. unfold ngrow. cbn. lia. Qed.
  Lemma adds_trans a b c : adds a b -> adds b c -> adds a c.
  Proof.
    intros (e1 & L1 & V1) (e2 & L2 & V2). exists (e1 ++ e2). rewrite L2, L1, <- app_assoc, ngrow_app.
    split; [reflexivity|lia].
  Qed.

  Section Step.
    Variable step : dvc -> vcall -> res (dvc * vres).
    Hypothesis HS : forall w c w' r, step w c = Ok (w', r) -> adds w w'.

    Lemma dcbody_adds b : forall w w', dcbody_run step b w = Ok w' -> adds w w'.
    Proof.
      induction b as [|c k IH]; intros w w' E; cbn [dcbody_run] in E.
      - inversion E; subst. apply adds_refl.
      - destruct (step w c) as [[w1 r]| |] eqn:ES; cbn [bind] in E; try discriminate.
        eapply adds_trans; [exact (HS _ _ _ _ ES)|exact (IH r _ _ E)].
    Qed.

    (** A loop that comes to its end has added nothing. *)
    Definition quiet (w w' : dvc) : Prop := dc_ver w' = dc_ver w /\ adds w w'.
    Lemma dc_round_quiet enter cb i w w' :
      (forall w o, quiet w (enter w o)) -> dc_round enter cb step i w = Ok w' -> quiet w w'.
    Proof.
      intros HE E. unfold dc_round in E. destruct (nth_error (dc_obs w) i) as [o|]; [|discriminate].
      destruct (dcbody_run step (cb (dc_log w) o) (enter w o)) as [w1| |] eqn:EB; cbn [bind] in E; try discriminate.
      destruct (Nat.eqb_spec (dc_ver w1) (dc_ver w)) as [V|V]; [|discriminate]. inversion E; subst w1.
      split; [exact V|]. eapply adds_trans; [apply HE|eapply dcbody_adds, EB].
    Qed.
    Lemma dc_loop_quiet f : (forall i w w', f i w = Ok w' -> quiet w w') ->
      forall k i w w', dc_loop f i k w = Ok w' -> quiet w w'.
    Proof.
      intros Hf. induction k as [|k IH]; intros i w w' E; cbn [dc_loop] in E.
      - inversion E; subst. split; [reflexivity|apply adds_refl].
      - destruct (f i w) as [w1| |] eqn:E1; cbn [bind] in E; try discriminate.
        destruct (Hf _ _ _ E1) as [V1 A1]. destruct (IH _ _ _ E) as [V2 A2].
        split; [congruence|eapply adds_trans; eassumption].
    Qed.
    Lemma emit_quiet w e m : grows e = false ->
      quiet w (dcemit (DVC (dc_val w) (dc_obs w) (dc_ver w) m (dc_log w)) e).
    Proof.
      intros G. split; [reflexivity|]. exists [e]. unfold ngrow. cbn. rewrite G. cbn. split; [reflexivity|lia].
    Qed.
    Lemma dc_notify_quiet n w w' : dc_notify upd step n w = Ok w' -> quiet w w'.
    Proof.
      unfold dc_notify. apply dc_loop_quiet. intros i w1 w2. apply dc_round_quiet.
      intros w0 o. apply emit_quiet. reflexivity.
    Qed.
    Lemma dc_clear_quiet n w w' :
      dc_loop (dc_round (fun w o => dcemit w (VDisc o)) disc step) 0 n w = Ok w' -> quiet w w'.
    Proof.
      apply dc_loop_quiet. intros i w1 w2. apply dc_round_quiet.
      intros w0 o. pose proof (emit_quiet w0 (VDisc o) (dc_mirror w0) eq_refl) as Q. destruct w0. exact Q.
    Qed.
  End Step.

  Definition call_quiet (c : vcall) : bool := match c with VAdd _ | VClear => false | _ => true end.

  Lemma dc_remove f w o :
    dcrun (S f) w (VRemove o)
    = Ok (DVC (dc_val w) (left_over o (dc_obs w)) (dc_ver w) (dc_mirror w)
              (dc_log w ++ [VRet (VRemove o) (RErr (remove_answer (dc_obs w) o))]),
          RErr (remove_answer (dc_obs w) o)).
  Proof.
    cbn [ValuesModel.dcrun]. unfold vec_remove, remove_answer. destruct (Nat.eqb_spec (length (dc_obs w)) 0) as [H|H].
    - destruct w as [v l k m g]. cbn in *. destruct l; [|discriminate]. reflexivity.
    - rewrite remove_exact. cbn [bind]. rewrite unwrap_map. cbn [bind].
      destruct (in_dec Pos.eq_dec o (dc_obs w)) as [HI|HI].
      + pose proof (proj1 (remove_length_eq o (dc_obs w))).
        replace (length (remove Pos.eq_dec o (dc_obs w)) =? length (dc_obs w))%nat with false; [reflexivity|].
        symmetry. apply Nat.eqb_neq. tauto.
      + unfold left_over. rewrite (proj2 (remove_length_eq o (dc_obs w)) HI), Nat.eqb_refl. reflexivity.
  Qed.

  (** The events of a call and its return, and nothing added during a notification. *)
  Lemma dcrun_adds f : forall w c w' r, dcrun f w c = Ok (w', r) -> adds w w' /\
    exists evs, dc_log w' = dc_log w ++ evs ++ [VRet c r] /\ (call_quiet c = true -> ngrow evs = O).
  Proof.
    induction f as [|f IH]; intros w c w' r E; [discriminate|].
    assert (HS : forall w c w' r, dcrun f w c = Ok (w', r) -> adds w w') by (intros; eapply IH; eassumption).
    destruct c as [o|o| |n|o].
    - cbn [ValuesModel.dcrun] in E. destruct (existsb (Pos.eqb o) (dc_obs w)); cbn [bind] in E; inversion E; subst w' r; clear E.
      + split.
        * exists [VRet (VAdd o) (RErr already_contains)]. split; [reflexivity|]. unfold ngrow. cbn. lia.
        * exists []. split; [reflexivity|reflexivity].
      + split.
        * exists [VRet (VAdd o) (RErr ok)]. split; [reflexivity|]. unfold ngrow. cbn. lia.
        * exists []. split; [reflexivity|reflexivity].
    - rewrite dc_remove in E. inversion E; subst w' r; clear E. split.
      + eexists. split; [reflexivity|]. unfold ngrow. cbn. lia.
      + exists []. split; reflexivity.
    - cbn [ValuesModel.dcrun] in E.
      destruct (dc_loop _ 0 (length (dc_obs w)) w) as [w1| |] eqn:EL; cbn [bind] in E; try discriminate.
      inversion E; subst w' r; clear E. destruct (dc_clear_quiet (dcrun f) HS _ _ _ EL) as [V (evs & L & N)].
      split.
      + exists (evs ++ [VRet VClear RUnit]). cbn [dcemit dc_log dc_ver]. rewrite L, <- app_assoc, ngrow_app. split; [reflexivity|].
        unfold ngrow at 2. cbn. lia.
      + exists evs. cbn [dcemit dc_log]. rewrite L, <- app_assoc. split; [reflexivity|discriminate].
    - cbn [ValuesModel.dcrun] in E.
      destruct (dc_notify upd (dcrun f) (conv t n) w) as [w1| |] eqn:EL; cbn [bind] in E; try discriminate.
      inversion E; subst w' r; clear E. destruct (dc_notify_quiet (dcrun f) HS _ _ _ EL) as [V (evs & L & N)].
      split.
      + exists (evs ++ [VRet (VNotify n) (RErr ok)]). cbn [dcemit dc_log dc_ver]. rewrite L, <- app_assoc, ngrow_app. split; [reflexivity|].
        unfold ngrow at 2. cbn. lia.
      + exists evs. cbn [dcemit dc_log]. rewrite L, <- app_assoc. split; [reflexivity|intros _; lia].
    - cbn [ValuesModel.dcrun] in E. destruct (published t (dc_val w) o) as [p| |] eqn:EP; cbn [bind] in E; try discriminate.
      match type of E with context [dc_notify _ _ _ ?x] => set (w0 := x) in E end.
      destruct (dc_notify upd (dcrun f) p w0) as [w1| |] eqn:EL; cbn [bind] in E; try discriminate.
      inversion E; subst w' r; clear E. destruct (dc_notify_quiet (dcrun f) HS _ _ _ EL) as [V (evs & L & N)].
      unfold w0 in *. cbn [dcemit dc_log dc_ver] in *.
      split.
      + exists (Applied o :: evs ++ [VRet (VOp o) (RVal p)]). cbn [dcemit dc_log dc_ver]. rewrite L, <- !app_assoc. cbn [app].
        split; [reflexivity|]. change (Applied o :: evs ++ [VRet (VOp o) (RVal p)]) with ([Applied o] ++ evs ++ [VRet (VOp o) (RVal p)]).
        rewrite !ngrow_app. unfold ngrow at 1 3. cbn. lia.
      + exists (Applied o :: evs). cbn [dcemit dc_log]. rewrite L, <- !app_assoc. cbn [app]. split; [reflexivity|].
        intros _. change (Applied o :: evs) with ([Applied o] ++ evs). rewrite ngrow_app. unfold ngrow at 1. cbn. lia.
  Qed.

  (** ** Callbacks that neither add nor clear *)
  Hypothesis T : ity_ok t.
  Hypothesis TU : forall log o n, stable_body t (upd log o n).
  Hypothesis TD : forall log o, stable_body t (disc log o).

  Definition same (w w' : dvc) : Prop :=
    dc_ver w' = dc_ver w /\ length (dc_obs w') = length (dc_obs w) /\ (in_ity t (dc_val w) -> in_ity t (dc_val w')).
  Lemma same_refl w : same w w.
  Proof. unfold same. tauto. Qed.
  Lemma same_trans a b c : same a b -> same b c -> same a c.
  Proof. unfold same. intros (A1 & A2 & A3) (B1 & B2 & B3). split; [congruence|]. split; [congruence|tauto]. Qed.
  Definition calm (w : dvc) (x : res dvc) : Prop :=
    match x with Ok w' => same w w' | UB => False | Fuel => True end.
  Definition calm2 {R} (w : dvc) (x : res (dvc * R)) : Prop :=
    match x with Ok (w', _) => same w w' | UB => False | Fuel => True end.

  Section Step2.
    Variable step : dvc -> vcall -> res (dvc * vres).
    Hypothesis HS : forall w c, in_ity t (dc_val w) -> stable_call t c -> calm2 w (step w c).

    Lemma dcbody_calm b : stable_body t b -> forall w, in_ity t (dc_val w) -> calm w (dcbody_run step b w).
    Proof.
      induction 1 as [|c k TC TK IH]; intros w I; cbn [dcbody_run]; [apply same_refl|].
      pose proof (HS w c I TC) as X. destruct (step w c) as [[w1 r]| |]; cbn [bind calm2] in *; try exact X.
      specialize (IH r w1 (proj2 (proj2 X) I)). destruct (dcbody_run step (k r) w1); cbn [calm] in *; try exact IH.
      eapply same_trans; eassumption.
    Qed.
    Lemma dc_round_calm enter cb i n w :
      (forall w o, same w (enter w o)) -> (forall log o, stable_body t (cb log o)) ->
      in_ity t (dc_val w) -> length (dc_obs w) = n -> (i < n)%nat -> calm w (dc_round enter cb step i w).
    Proof.
      intros HE HB I L LT. unfold dc_round.
      destruct (nth_error (dc_obs w) i) as [o|] eqn:EN; [|apply nth_error_None in EN; lia].
      pose proof (HE w o) as X. pose proof (dcbody_calm _ (HB (dc_log w) o) (enter w o) (proj2 (proj2 X) I)) as B.
      destruct (dcbody_run step (cb (dc_log w) o) (enter w o)) as [w1| |]; cbn [bind calm] in *; try exact B.
      pose proof (same_trans _ _ _ X B) as S1. replace (dc_ver w1 =? dc_ver w)%nat with true by (destruct S1; lia). exact S1.
    Qed.
    Lemma dc_loop_calm f n : (forall i w, in_ity t (dc_val w) -> length (dc_obs w) = n -> (i < n)%nat -> calm w (f i w)) ->
      forall k i w, in_ity t (dc_val w) -> length (dc_obs w) = n -> (i + k <= n)%nat -> calm w (dc_loop f i k w).
    Proof.
      intros Hf. induction k as [|k IH]; intros i w I L LT; cbn [dc_loop]; [apply same_refl|].
      pose proof (Hf i w I L ltac:(lia)) as X. destruct (f i w) as [w1| |]; cbn [bind calm] in *; try exact X.
      destruct X as (X1 & X2 & X3). specialize (IH (S i) w1 (X3 I) ltac:(lia) ltac:(lia)).
      destruct (dc_loop f (S i) k w1); cbn [calm] in *; try exact IH.
      eapply same_trans; [|exact IH]. split; [exact X1|split; [exact X2|exact X3]].
    Qed.
    Lemma dc_notify_calm n w : in_ity t (dc_val w) -> calm w (dc_notify upd step n w).
    Proof.
      intros I. unfold dc_notify. apply (dc_loop_calm _ (length (dc_obs w))); [|exact I|reflexivity|lia].
      intros i w1 I1 L1 LT. apply (dc_round_calm _ _ i (length (dc_obs w))); try assumption.
      - intros w0 o. split; [reflexivity|split; [reflexivity|tauto]].
      - intros log o. apply TU.
    Qed.
    Lemma dc_clear_calm w : in_ity t (dc_val w) ->
      calm w (dc_loop (dc_round (fun w o => dcemit w (VDisc o)) disc step) 0 (length (dc_obs w)) w).
    Proof.
      intros I. apply (dc_loop_calm _ (length (dc_obs w))); [|exact I|reflexivity|lia].
      intros i w1 I1 L1 LT. apply (dc_round_calm _ _ i (length (dc_obs w))); try assumption.
      intros w0 o. split; [reflexivity|split; [reflexivity|tauto]].
    Qed.
  End Step2.

  Lemma dcrun_calm f : forall w c, in_ity t (dc_val w) -> stable_call t c -> calm2 w (dcrun f w c).
  Proof.
    induction f as [|f IH]; intros w c I TC; [exact Logic.I|].
    destruct c as [o|o| |n|o]; try destruct TC.
    - rewrite dc_remove. cbn [calm2]. split; [reflexivity|]. split; [apply left_over_length|tauto].
    - cbn [ValuesModel.dcrun]. pose proof (dc_notify_calm (dcrun f) IH (conv t n) w I) as X.
      destruct (dc_notify upd (dcrun f) (conv t n) w); cbn [bind calm calm2] in *; exact X.
    - cbn [ValuesModel.dcrun]. destruct (published_ub t (dc_val w) o) as [U1 U2].
      destruct (published t (dc_val w) o) as [p| |]; cbn [bind]; [|apply (TC _ I), U1; reflexivity|congruence].
      match goal with |- context [dc_notify _ _ _ ?x] => set (w0 := x) end.
      assert (S0 : same w w0).
      { split; [reflexivity|]. split; [reflexivity|]. intros _. unfold w0. cbn [dcemit dc_val].
        rewrite (apply_math t (dc_val w) o T). apply conv_range, T. }
      pose proof (dc_notify_calm (dcrun f) IH p w0 (proj2 (proj2 S0) I)) as X.
      destruct (dc_notify upd (dcrun f) p w0) as [w1| |]; cbn [bind calm calm2] in *; try exact X.
      exact (same_trans _ _ _ S0 X).
  Qed.

  Lemma dcrun_defined f w c : in_ity t (dc_val w) -> tame_call t c ->
    match dcrun f w c with Ok (w', _) => in_ity t (dc_val w') | UB => False | Fuel => True end.
  Proof.
    intros I TC. destruct c as [o|o| |n|o].
    - destruct f as [|f]; [exact Logic.I|]. cbn [ValuesModel.dcrun].
      destruct (existsb (Pos.eqb o) (dc_obs w)); cbn [bind]; exact I.
    - pose proof (dcrun_calm f w (VRemove o) I Logic.I) as X. destruct (dcrun f w (VRemove o)) as [[w' r]| |]; cbn in *; [apply X, I|exact X|exact X].
    - destruct f as [|f]; [exact Logic.I|]. cbn [ValuesModel.dcrun].
      pose proof (dc_clear_calm (dcrun f) (dcrun_calm f) w I) as X.
      destruct (dc_loop _ 0 (length (dc_obs w)) w); cbn [bind calm] in *; [apply X, I|exact X|exact X].
    - pose proof (dcrun_calm f w (VNotify n) I Logic.I) as X. destruct (dcrun f w (VNotify n)) as [[w' r]| |]; cbn in *; [apply X, I|exact X|exact X].
    - pose proof (dcrun_calm f w (VOp o) I TC) as X. destruct (dcrun f w (VOp o)) as [[w' r]| |]; cbn in *; [apply X, I|exact X|exact X].
  Qed.

  Lemma dcrun_all_defined f calls : Forall (tame_call t) calls -> forall w, in_ity t (dc_val w) ->
    dcrun_all t upd disc f w calls <> UB.
  Proof.
    induction 1 as [|c calls TC _ IH]; intros w I; cbn [dcrun_all]; [discriminate|].
    pose proof (dcrun_defined f w c I TC) as X.
    destruct (dcrun f w c) as [[w1 r]| |]; cbn [bind] in *; [apply IH, X|contradiction|discriminate].
  Qed.
End Dc.

(** A stretch of the loop in which no callback does anything. *)
Lemma dc_silent_loop upd step n l : forall p q w, dc_obs w = p ++ l ++ q ->
  (forall log o, In o l -> upd log o n = VReturn) ->
  dc_loop (dc_round (fun w o => dcemit (DVC (dc_val w) (dc_obs w) (dc_ver w)
                                            (set_mirror (dc_mirror w) o n) (dc_log w)) (Store o n))
                    (fun log o => upd log o n) step) (length p) (length l) w
  = Ok (DVC (dc_val w) (dc_obs w) (dc_ver w) (dv_store_all l n (dc_mirror w))
            (dc_log w ++ map (fun o => Store o n) l)).
Proof.
  induction l as [|o l IH]; intros p q w Hs Q; cbn [length dc_loop].
  - cbn. rewrite app_nil_r. destruct w; reflexivity.
  - unfold dc_round at 1. rewrite Hs. rewrite nth_error_app2, Nat.sub_diag by lia. cbn [app nth_error].
    rewrite Q by (left; reflexivity). cbn [dcbody_run bind dcemit dc_ver]. rewrite Nat.eqb_refl. cbn [bind].
    match goal with |- dc_loop _ _ _ ?w1 = _ => assert (H := IH (p ++ [o]) q w1) end.
    rewrite app_length in H. cbn [length] in H. replace (length p + 1)%nat with (S (length p)) in H by lia.
    rewrite H; [| |intros; apply Q; right; assumption].
    + cbn [dcemit dc_val dc_obs dc_ver dc_mirror dc_log map dv_store_all]. rewrite <- app_assoc. reflexivity.
    + cbn [dc_obs]. rewrite <- app_assoc. reflexivity.
Qed.

Lemma dc_silent_disc disc step (P : passive_disc disc) l : forall p w, dc_obs w = p ++ l ->
  dc_loop (dc_round (fun w o => dcemit w (VDisc o)) disc step) (length p) (length l) w
  = Ok (DVC (dc_val w) (dc_obs w) (dc_ver w) (dc_mirror w) (dc_log w ++ map VDisc l)).
Proof.
  induction l as [|o l IH]; intros p w Hs; cbn [length dc_loop].
  - cbn. rewrite app_nil_r. destruct w; reflexivity.
  - unfold dc_round at 1. rewrite Hs. rewrite nth_error_app2, Nat.sub_diag by lia. cbn [nth_error].
    rewrite P. cbn [dcbody_run bind dcemit dc_ver]. rewrite Nat.eqb_refl. cbn [bind].
    match goal with |- dc_loop _ _ _ ?w1 = _ => assert (H := IH (p ++ [o]) w1) end.
    rewrite app_length in H. cbn [length] in H. replace (length p + 1)%nat with (S (length p)) in H by lia.
    rewrite H; cbn [dcemit dc_val dc_obs dc_ver dc_mirror dc_log map].
    + rewrite <- Hs, <- app_assoc. reflexivity.
    + rewrite <- app_assoc. exact Hs.
Qed.

Section DcPassive.
  Variable t : ity.
  Variable upd : list vev -> addr -> Z -> vbody.
  Variable disc : list vev -> addr -> vbody.
  Hypothesis P1 : passive upd.
  Hypothesis P2 : passive_disc disc.

  (** What each call does when the callbacks leave the observable alone. *)
  Lemma dc_passive f w c : match c with VOp o => ~ overflows t (dc_val w) o | _ => True end ->
    dcrun t upd disc (S f) w c
    = Ok (match c with
          | VAdd o => let e := if in_dec Pos.eq_dec o (dc_obs w) then already_contains else ok in
              DVC (dc_val w) (match e with ok => dc_obs w ++ [o] | _ => dc_obs w end)
                  (match e with ok => S (dc_ver w) | _ => dc_ver w end) (dc_mirror w) (dc_log w ++ [VRet c (RErr e)])
          | VRemove o => DVC (dc_val w) (left_over o (dc_obs w)) (dc_ver w) (dc_mirror w)
                             (dc_log w ++ [VRet c (RErr (remove_answer (dc_obs w) o))])
          | VClear => DVC (dc_val w) [] (S (dc_ver w)) (dc_mirror w) (dc_log w ++ map VDisc (dc_obs w) ++ [VRet c RUnit])
          | VNotify n => DVC (dc_val w) (dc_obs w) (dc_ver w) (dv_store_all (dc_obs w) (conv t n) (dc_mirror w))
                             (dc_log w ++ map (fun o => Store o (conv t n)) (dc_obs w) ++ [VRet c (RErr ok)])
          | VOp o => let p := match published t (dc_val w) o with Ok p => p | _ => 0 end in
              DVC (apply_atomic t (dc_val w) o) (dc_obs w) (dc_ver w) (dv_store_all (dc_obs w) p (dc_mirror w))
                  (dc_log w ++ Applied o :: map (fun x => Store x p) (dc_obs w) ++ [VRet c (RVal p)])
          end,
          match c with
          | VAdd o => RErr (if in_dec Pos.eq_dec o (dc_obs w) then already_contains else ok)
          | VRemove o => RErr (remove_answer (dc_obs w) o)
          | VClear => RUnit
          | VNotify _ => RErr ok
          | VOp o => RVal (match published t (dc_val w) o with Ok p => p | _ => 0 end)
          end).
  Proof.
    intros HO. destruct c as [o|o| |n|o].
    - cbn [dcrun]. replace (existsb (Pos.eqb o) (dc_obs w)) with (if in_dec Pos.eq_dec o (dc_obs w) then true else false).
      { destruct (in_dec Pos.eq_dec o (dc_obs w)); cbn [bind]; [destruct w; reflexivity|reflexivity]. }
      destruct (in_dec Pos.eq_dec o (dc_obs w)) as [H|H]; symmetry.
      + apply existsb_exists. exists o. split; [exact H|apply Pos.eqb_refl].
      + apply not_true_iff_false. intros X. apply existsb_exists in X. destruct X as (y & X1 & X2).
        apply Pos.eqb_eq in X2. subst y. contradiction.
    - apply dc_remove.
    - cbn [dcrun]. pose proof (dc_silent_disc disc (dcrun t upd disc f) P2 (dc_obs w) [] w eq_refl) as L.
      cbn [length app] in L. rewrite L. cbn [bind]. unfold dcemit. cbn [dc_val dc_obs dc_ver dc_mirror dc_log]. rewrite <- app_assoc. reflexivity.
    - cbn [dcrun]. unfold dc_notify.
      pose proof (dc_silent_loop upd (dcrun t upd disc f) (conv t n) (dc_obs w) [] [] w) as L.
      cbn [length app] in L. rewrite L; [|rewrite app_nil_r; reflexivity|intros; apply P1].
      cbn [bind]. unfold dcemit. cbn [dc_val dc_obs dc_ver dc_mirror dc_log]. rewrite <- app_assoc. reflexivity.
    - cbn [dcrun]. destruct (published_ub t (dc_val w) o) as [U1 U2].
      destruct (published t (dc_val w) o) as [p| |] eqn:EP; cbn [bind]; [|tauto|congruence].
      unfold dc_notify. match goal with |- context [dc_loop _ 0 _ ?x] =>
        pose proof (dc_silent_loop upd (dcrun t upd disc f) p (dc_obs w) [] [] x) as L end.
      cbn [length app dcemit dc_obs dc_val dc_ver dc_mirror dc_log] in L |- *. rewrite L; [|rewrite app_nil_r; reflexivity|intros; apply P1].
      cbn [bind]. unfold dcemit. cbn [dc_val dc_obs dc_ver dc_mirror dc_log]. rewrite <- !app_assoc. reflexivity.
  Qed.

  Lemma vmembers_stores log l n : vmembers (log ++ map (fun o => Store o n) l) = vmembers log.
  Proof.
    unfold vmembers. rewrite fold_left_app. generalize (fold_left vmember_step log []).
    induction l as [|o l IH]; intros m; cbn; [reflexivity|]. apply IH.
  Qed.
  Lemma vmembers_discs log l : vmembers (log ++ map VDisc l) = vmembers log.
  Proof.
    unfold vmembers. rewrite fold_left_app. generalize (fold_left vmember_step log []).
    induction l as [|o l IH]; intros m; cbn; [reflexivity|]. apply IH.
  Qed.

  (** Without removals the vector is the set of those added. *)
  Definition dc_set (w : dvc) : Prop := dc_obs w = vmembers (dc_log w) /\ NoDup (dc_obs w) /\ in_ity t (dc_val w).
  Hypothesis T : ity_ok t.
  Lemma dc_set_step f w c w' r : (forall o, c <> VRemove o) -> dc_set w -> dcrun t upd disc f w c = Ok (w', r) -> dc_set w'.
  Proof.
    intros NR (S1 & S2 & S3) E. destruct f as [|f]; [discriminate|].
    assert (HO : match c with VOp o => ~ overflows t (dc_val w) o | _ => True end).
    { destruct c as [| | | |o]; try exact Logic.I. intros X. apply published_ub in X.
      cbn [dcrun] in E. rewrite X in E. discriminate. }
    rewrite (dc_passive f w c HO) in E. inversion E; subst w' r; clear E. unfold dc_set.
    destruct c as [o|o| |n|o]; cbn [dc_obs dc_log dc_val].
    - rewrite vmembers_snoc. destruct (in_dec Pos.eq_dec o (dc_obs w)) as [H|H]; cbn [vmember_step]; rewrite <- S1.
      + tauto.
      + split; [reflexivity|]. split; [apply NoDup_end; assumption|exact S3].
    - destruct (NR o). reflexivity.
    - rewrite app_assoc, vmembers_snoc. cbn. split; [reflexivity|]. split; [constructor|exact S3].
    - rewrite app_assoc, vmembers_snoc. cbn [vmember_step]. rewrite vmembers_stores. tauto.
    - match goal with |- context [Applied o :: ?l ++ ?k] => change (Applied o :: l ++ k) with ([Applied o] ++ l ++ k) end.
      rewrite !app_assoc, vmembers_snoc. cbn [vmember_step]. rewrite vmembers_stores, vmembers_snoc. cbn [vmember_step].
      split; [exact S1|]. split; [exact S2|]. rewrite (apply_math t (dc_val w) o T). apply conv_range, T.
  Qed.

  Lemma dc_set_reach w : dcreaches_no_remove t upd disc w -> dc_set w.
  Proof.
    intros (m & f & calls & NR & E). assert (S0 : dc_set (dcfresh m)).
    { split; [reflexivity|]. split; [constructor|]. cbn.
      pose proof (conv_range t 0 T) as X. rewrite conv_id in X; [exact X|exact T|].
      unfold in_ity, lo, hi. pose proof (pow_half t T) as [H1 H2]. destruct (i_signed t); lia. }
    revert S0 E. generalize (dcfresh m). induction calls as [|c calls IH]; intros w0 S0 E; cbn [dcrun_all] in E.
    - inversion E; subst. exact S0.
    - destruct (dcrun t upd disc f w0 c) as [[w1 r]| |] eqn:ES; cbn [bind] in E; try discriminate.
      apply (IH (fun o H => NR o (or_intror H)) w1); [|exact E].
      eapply dc_set_step; [|exact S0|exact ES]. intros o ->. apply (NR o). left. reflexivity.
  Qed.
End DcPassive.

(** A removal in the middle of a notification. *)
Lemma dc_loop_app f k1 : forall i k2 w,
  dc_loop f i (k1 + k2) w = (w' <- dc_loop f i k1 w ;; dc_loop f (i + k1) k2 w').
Proof.
  induction k1 as [|k1 IH]; intros i k2 w; cbn [Nat.add dc_loop bind].
  - rewrite Nat.add_0_r. reflexivity.
  - destruct (f i w) as [w1| |]; cbn [bind]; try reflexivity.
    rewrite IH. replace (i + S k1)%nat with (S i + k1)%nat by lia. reflexivity.
Qed.

Lemma left_over_split a x p q d : NoDup (p ++ a :: q) -> In x (p ++ a :: q) ->
  exists p' , length p' = S (length p) /\ left_over x (p ++ a :: q) = p' ++ after_removal x q d.
Proof.
  intros ND HI. rewrite (left_over_nodup x _ d ND HI).
  assert (HL : last (p ++ a :: q) d = last (a :: q) d).
  { clear. induction p as [|y p IH]; [reflexivity|]. rewrite <- IH. destruct p; reflexivity. }
  assert (DQ : forall y, In y (p ++ [a]) -> ~ In y q).
  { intros y Hy Hq. replace (p ++ a :: q) with ((p ++ [a]) ++ q) in ND by (rewrite <- app_assoc; reflexivity).
    revert ND Hy Hq. clear. generalize (p ++ [a]). intros l ND Hy Hq. induction l as [|z l IH]; [destruct Hy|].
    cbn in ND. inversion ND as [|? ? A B]; subst. destruct Hy as [->|Hy]; [apply A, in_app_iff; right; exact Hq|exact (IH B Hy)]. }
  assert (NPA : NoDup (p ++ [a])).
  { replace (p ++ a :: q) with ((p ++ [a]) ++ q) in ND by (rewrite <- app_assoc; reflexivity).
    revert ND. clear. generalize (p ++ [a]). intros l ND. induction l as [|z l IH]; [constructor|].
    cbn in ND. inversion ND as [|? ? A B]; subst. constructor; [intros H; apply A, in_app_iff; left; exact H|exact (IH B)]. }
  rewrite HL. replace (p ++ a :: q) with ((p ++ [a]) ++ q) by (rewrite <- app_assoc; reflexivity).
  rewrite remove_app. unfold after_removal. destruct (in_dec Pos.eq_dec x q) as [Hx|Hx].
  - destruct q as [|b q']; [destruct Hx|]. rewrite (remove_notin x (p ++ [a])) by (intros H; exact (DQ _ H Hx)).
    exists (p ++ [a]). split; [rewrite app_length; cbn; lia|]. rewrite <- app_assoc. reflexivity.
  - assert (Hpa : In x (p ++ [a])).
    { rewrite in_app_iff in HI |- *. destruct HI as [H|[H|H]]; [left; exact H|right; left; exact H|contradiction]. }
    rewrite (remove_notin x q Hx).
    assert (HR : length (remove Pos.eq_dec x (p ++ [a])) = length p).
    { rewrite remove_nodup_length by assumption. rewrite app_length. cbn. lia. }
    destruct q as [|b q'].
    + exists (remove Pos.eq_dec x (p ++ [a]) ++ [a]). split; [rewrite app_length, HR; cbn; lia|].
      cbn [last]. rewrite !app_nil_r. reflexivity.
    + exists (remove Pos.eq_dec x (p ++ [a]) ++ [b]). split; [rewrite app_length, HR; cbn; lia|].
      rewrite <- !app_assoc. cbn [app]. reflexivity.
Qed.

Lemma after_removal_length x q d : NoDup q -> length (after_removal x q d) = length q.
Proof.
  intros ND. unfold after_removal. destruct q as [|b q']; [reflexivity|]. rewrite app_length. cbn [length].
  destruct (in_dec Pos.eq_dec x (b :: q')) as [H|H]; [|lia]. rewrite remove_nodup_length by assumption. cbn [length]. lia.
Qed.

Lemma after_removal_in x q d y : In y (after_removal x q d) -> In y q.
Proof.
  unfold after_removal. destruct q as [|b q']; [intros []|]. rewrite in_app_iff. intros [H|[<-|[]]].
  - destruct (in_dec Pos.eq_dec x (b :: q')); [exact (proj1 (in_remove _ _ _ _ H))|right; exact H].
  - clear. revert b. induction q' as [|c q' IH]; intros b; [left; reflexivity|]. right. apply IH.
Qed.

Section DcRemoval.
  Variable t : ity.
  Variable disc : list vev -> addr -> vbody.

  Lemma dc_notify_removal f w a x p q d n : dc_obs w = p ++ a :: q -> NoDup (dc_obs w) -> In x (dc_obs w) ->
    exists m, dc_notify (vremover a x) (dcrun t (vremover a x) disc (S f)) n w
    = Ok (DVC (dc_val w) (left_over x (dc_obs w)) (dc_ver w) m
              (dc_log w ++ map (fun o => Store o n) (p ++ [a]) ++ VRet (VRemove x) (RErr ok)
                        :: map (fun o => Store o n) (after_removal x q d))).
  Proof.
    intros E ND HI. unfold dc_notify.
    assert (HN : length (dc_obs w) = (length p + S (length q))%nat) by (rewrite E, app_length; reflexivity).
    rewrite HN, dc_loop_app.
    assert (ND' := ND). assert (HI' := HI). rewrite E in ND', HI'.
    pose proof (dc_silent_loop (vremover a x) (dcrun t (vremover a x) disc (S f)) n p [] (a :: q) w) as L.
    cbn [length app] in L. rewrite L; [|exact E|].
    2:{ intros log o Ho. unfold vremover. destruct (Pos.eqb_spec o a) as [->|]; [|reflexivity].
        exfalso. apply NoDup_remove_2 in ND'. apply ND', in_app_iff. left. exact Ho. }
    cbn [bind Nat.add dc_loop]. unfold dc_round at 1. cbn [dc_obs]. rewrite E, nth_error_app2, Nat.sub_diag by lia.
    cbn [nth_error]. assert (HV : forall log, vremover a x log a n = VDo (VRemove x) (fun _ => VReturn)) by (intros; unfold vremover; rewrite Pos.eqb_refl; reflexivity).
    rewrite HV. cbn [dcbody_run].
    rewrite dc_remove. cbn [bind]. unfold dcemit. cbn [dc_val dc_obs dc_ver dc_mirror dc_log]. rewrite Nat.eqb_refl. cbn [bind].
    unfold remove_answer. destruct (in_dec Pos.eq_dec x (p ++ a :: q)) as [_|N]; [|contradiction].
    destruct (left_over_split a x p q d ND' HI') as (p' & P1 & P2).
    assert (NQ : NoDup q). { apply NoDup_remove_1 in ND'. clear - ND'. induction p as [|y p IH]; [exact ND'|]. inversion ND'; subst. apply IH. assumption. }
    match goal with |- context [dc_loop _ _ _ ?w1] =>
      pose proof (dc_silent_loop (vremover a x) (dcrun t (vremover a x) disc (S f)) n (after_removal x q d) p' [] w1) as L2 end.
    cbn [dc_val dc_obs dc_ver dc_mirror dc_log] in L2. rewrite P1, (after_removal_length x q d NQ) in L2.
    unfold dcemit in L2. cbn [dc_val dc_obs dc_ver dc_mirror dc_log] in L2. rewrite L2; [|rewrite app_nil_r; exact P2|].
    2:{ intros log o Ho. unfold vremover. destruct (Pos.eqb_spec o a) as [->|]; [|reflexivity].
        exfalso. apply after_removal_in in Ho. apply NoDup_remove_2 in ND'. apply ND', in_app_iff. right. exact Ho. }
    rewrite map_app. cbn [map]. rewrite <- !app_assoc. cbn [app]. eexists. reflexivity.
  Qed.
End DcRemoval.

(** Adding distinct observeds to a fresh one. *)
Lemma dc_add_all t upd disc f l : forall w, NoDup (dc_obs w ++ l) -> exists w',
  dcrun_all t upd disc (S f) w (map VAdd l) = Ok w' /\ dc_obs w' = dc_obs w ++ l.
Proof.
  induction l as [|o l IH]; intros w ND; cbn [map dcrun_all].
  - exists w. rewrite app_nil_r. tauto.
  - cbn [dcrun].
    replace (existsb (Pos.eqb o) (dc_obs w)) with false.
    2:{ symmetry. apply Bool.not_true_iff_false. intros H. apply existsb_exists in H.
        destruct H as (x & HI & Hx). apply Pos.eqb_eq in Hx. subst x.
        apply NoDup_remove_2 in ND. apply ND. rewrite in_app_iff. left. exact HI. }
    cbn [bind].
    match goal with |- exists w', dcrun_all t _ _ _ ?w1 _ = _ /\ _ => destruct (IH w1) as (w' & A & B) end.
    + cbn [dcemit dc_obs]. rewrite <- app_assoc. exact ND.
    + exists w'. split; [exact A|]. rewrite B. cbn [dcemit dc_obs]. rewrite <- app_assoc. reflexivity.
Qed.

Lemma dc_op_defined t upd disc f w op w' r : dcrun t upd disc f w (VOp op) = Ok (w', r) -> ~ overflows t (dc_val w) op.
Proof.
  intros E X. apply published_ub in X. destruct f as [|f]; [discriminate|]. cbn [dcrun] in E. rewrite X in E. discriminate.
Qed.
