(** The fixed-size value observable under arbitrary callbacks. *)
From Verif Require Export ValuesProofs1.

(** The copies after one round of stores. *)
Fixpoint dv_store_all (l : list addr) (n : Z) (m : addr -> Z) : addr -> Z :=
  match l with
  | [] => m
  | o :: rest => dv_store_all rest n (set_mirror m o n)
  end.

Section Inv.
  Variable t : ity.
  Variable Max : Z.
  Hypothesis T : ity_ok t.
  Notation cap := (max_observers Max).

  Definition vadded (log : list vev) (o : addr) : Prop := In (VRet (VAdd o) (RErr ok)) log.

  Definition vgood_ev (log : list vev) (e : vev) : Prop :=
    match e with
    | VRet (VAdd o) r => r = RErr (add_answer cap (vmembers log) o)
    | VRet (VRemove o) r => r = RErr (remove_answer (vmembers log) o)
    | Store o _ | VDisc o => vadded log o
    | _ => True
    end.
  Inductive vgood : list vev -> Prop :=
  | vgood_nil : vgood []
  | vgood_snoc log e : vgood log -> vgood_ev log e -> vgood (log ++ [e]).

  Lemma vmembers_snoc log e : vmembers (log ++ [e]) = vmember_step (vmembers log) e.
  Proof. unfold vmembers. rewrite fold_left_app. reflexivity. Qed.
  Lemma math_snoc log e : math_value (log ++ [e]) = math_step (math_value log) e.
  Proof. unfold math_value. rewrite fold_left_app. reflexivity. Qed.

  Record vinv (w : vworld) : Prop := {
    vi_len : length (v_slots w) = cap;
    vi_repr : exists r, v_slots w = map Some (vmembers (v_log w)) ++ r;
    vi_cnt : v_cnt w = length (vmembers (v_log w));
    vi_nodup : NoDup (vmembers (v_log w));
    vi_added : forall o, In (Some o) (v_slots w) -> vadded (v_log w) o;
    vi_good : vgood (v_log w);
    vi_val : v_val w = conv t (math_value (v_log w))
  }.

  Lemma vinv_le w : vinv w -> (v_cnt w <= cap)%nat.
  Proof.
    intros I. destruct (vi_repr w I) as [r H2]. rewrite (vi_cnt w I), <- (vi_len w I), H2, app_length, map_length. lia.
  Qed.

  Lemma vinv_nz w : vinv w -> nzs (v_slots w) (v_cnt w).
  Proof.
    intros I. destruct (vi_repr w I) as [r H2]. exists (vmembers (v_log w)), r.
    split; [exact H2|]. symmetry. apply (vi_cnt w I).
  Qed.

  Lemma vinv_fresh m : vinv (vfresh Max m).
  Proof.
    unfold vfresh, fresh_slots. split; cbn [v_slots v_log v_cnt v_val].
    - apply repeat_length.
    - exists (repeat None cap). reflexivity.
    - reflexivity.
    - constructor.
    - intros o H. apply repeat_spec in H. discriminate.
    - constructor.
    - cbn. symmetry. apply conv_id; [exact T|]. unfold in_ity, lo, hi.
      destruct (pow_half t T). pose proof (pow_pos t T). destruct (i_signed t); lia.
  Qed.

  Record vext (w w' : vworld) : Prop := {
    ve_inv : vinv w';
    ve_nz : forall n, nzs (v_slots w) n -> nzs (v_slots w') n;
    ve_log : exists evs, v_log w' = v_log w ++ evs
  }.
  Lemma vext_refl w : vinv w -> vext w w.
  Proof. intros H. split; [exact H|tauto|]. exists []. rewrite app_nil_r. reflexivity. Qed.
  Lemma vext_trans a b c : vext a b -> vext b c -> vext a c.
  Proof.
    intros [A1 A3 [e1 A4]] [B1 B3 [e2 B4]]. split; [exact B1|intros n H; apply B3, A3, H|].
    exists (e1 ++ e2). rewrite B4, A4, app_assoc. reflexivity.
  Qed.

  (** An event that leaves the array and the value alone. *)
  Lemma vemit_plain w m e :
    vinv w -> vgood_ev (v_log w) e ->
    vmember_step (vmembers (v_log w)) e = vmembers (v_log w) ->
    math_step (math_value (v_log w)) e = math_value (v_log w) ->
    vext w (vemit (VW (v_val w) (v_slots w) (v_cnt w) m (v_log w)) e).
  Proof.
    intros [H1 H2 H3 H4 H5 H6 H7] G EM EV. unfold vemit. split; cbn [v_slots v_cnt v_log v_val v_mirror].
    - split; cbn [v_slots v_cnt v_log v_val]; rewrite ?vmembers_snoc, ?math_snoc, ?EM, ?EV; try assumption.
      + intros o Ho. unfold vadded. rewrite in_app_iff. left. apply H5, Ho.
      + constructor; assumption.
    - tauto.
    - exists [e]. reflexivity.
  Qed.

  Variable on_update : list vev -> addr -> Z -> vbody.
  Variable on_disc : list vev -> addr -> vbody.
  Notation vrun := (vrun t Max on_update on_disc).

  Definition risky : Prop := i_signed (common t) = true.
  Definition vsafe (w : vworld) (x : res vworld) : Prop :=
    match x with Ok w' => vext w w' | UB => risky | Fuel => True end.
  Definition vsafe2 {R} (w : vworld) (x : res (vworld * R)) : Prop :=
    match x with Ok (w', _) => vext w w' | UB => risky | Fuel => True end.

  Section Step.
    Variable step : vworld -> vcall -> res (vworld * vres).
    Hypothesis step_safe : forall w c, vinv w -> vsafe2 w (step w c).

    Lemma vbody_safe b : forall w, vinv w -> vsafe w (vbody_run step b w).
    Proof.
      induction b as [|c k IH]; intros w I; cbn [vbody_run].
      - apply vext_refl. exact I.
      - pose proof (step_safe w c I) as HS. destruct (step w c) as [[w' e]| |]; cbn [bind] in *; try exact HS.
        specialize (IH e w' (ve_inv _ _ HS)). destruct (vbody_run step (k e) w'); cbn in *; try exact IH.
        eapply vext_trans; eassumption.
    Qed.

    Lemma vdisc_safe i n w : vinv w -> nzs (v_slots w) n -> (i < n)%nat -> vsafe w (vcall_disc on_disc step i w).
    Proof.
      intros I N L. destruct (nzs_slot _ n i N L) as (o & S1 & S2).
      unfold vcall_disc. rewrite S1. cbn [bind].
      assert (X : vext w (vemit w (VDisc o))).
      { replace w with (VW (v_val w) (v_slots w) (v_cnt w) (v_mirror w) (v_log w)) at 2 by (destruct w; reflexivity).
        apply vemit_plain; [exact I| |reflexivity|reflexivity]. apply (vi_added w I), S2. }
      pose proof (vbody_safe (on_disc (v_log w) o) _ (ve_inv _ _ X)) as B.
      destruct (vbody_run step (on_disc (v_log w) o) (vemit w (VDisc o))); cbn in *; try exact B.
      eapply vext_trans; eassumption.
    Qed.

    Lemma vdata_safe v i n w : vinv w -> nzs (v_slots w) n -> (i < n)%nat ->
      vsafe w (vcall_data on_update step v i w).
    Proof.
      intros I N L. destruct (nzs_slot _ n i N L) as (o & S1 & S2).
      unfold vcall_data. rewrite S1. cbn [bind].
      set (w0 := vemit _ _).
      assert (X : vext w w0).
      { apply vemit_plain; [exact I| |reflexivity|reflexivity]. apply (vi_added w I), S2. }
      pose proof (vbody_safe (on_update (v_log w) o v) _ (ve_inv _ _ X)) as B.
      destruct (vbody_run step (on_update (v_log w) o v) w0); cbn in *; try exact B.
      eapply vext_trans; eassumption.
    Qed.

    Lemma vloop_safe f n : (forall i w, vinv w -> nzs (v_slots w) n -> (i < n)%nat -> vsafe w (f i w)) ->
      forall k i w, vinv w -> nzs (v_slots w) n -> (i + k <= n)%nat -> vsafe w (vloop f i k w).
    Proof.
      intros Hf. induction k as [|k IH]; intros i w I N L; cbn [vloop].
      - apply vext_refl. exact I.
      - pose proof (Hf i w I N ltac:(lia)) as HS. destruct (f i w) as [w'| |]; cbn [bind] in *; try exact HS.
        assert (S' := IH (S i) w' (ve_inv _ _ HS) (ve_nz _ _ HS n N) ltac:(lia)).
        destruct (vloop f (S i) k w'); cbn in *; try exact S'.
        eapply vext_trans; eassumption.
    Qed.

    Lemma vnotify_safe v w : vinv w -> vsafe2 w (vnotify Max on_update step v w).
    Proof.
      intros I. unfold vnotify.
      replace (cap <? v_cnt w)%nat with false by (pose proof (vinv_le w I); lia).
      pose proof (vloop_safe (vcall_data on_update step v) (v_cnt w)
                    (fun i w0 I0 N0 L0 => vdata_safe v i (v_cnt w) w0 I0 N0 L0)
                    (v_cnt w) 0 w I (vinv_nz w I) ltac:(lia)) as L.
      destruct (vloop (vcall_data on_update step v) 0 (v_cnt w) w); cbn in *; exact L.
    Qed.
  End Step.

  Lemma vinv_add w o a n e :
    vinv w -> add_observer Max (v_slots w) (v_cnt w) o = Ok (a, n, e) ->
    e = add_answer cap (vmembers (v_log w)) o /\
    vext w (vemit (VW (v_val w) a n (v_mirror w) (v_log w)) (VRet (VAdd o) (RErr e))).
  Proof.
    intros I E. destruct I as [H1 [r H2] H3 H4 H5 H6 H7].
    set (l := vmembers (v_log w)) in *.
    destruct (add_repr Max l r o) as (r' & E1 & E2 & E3); [rewrite <- H2; exact H1|].
    rewrite H2, H3, E1 in E. inversion E; subst a n e. clear E E1. split; [reflexivity|].
    set (x := add_answer cap l o) in *.
    assert (EM : vmembers (v_log w ++ [VRet (VAdd o) (RErr x)]) = match x with ok => l ++ [o] | _ => l end).
    { rewrite vmembers_snoc. fold l. destruct x; reflexivity. }
    unfold vemit. split; cbn [v_slots v_cnt v_log v_val v_mirror].
    - split; cbn [v_slots v_cnt v_log v_val]; rewrite ?EM, ?math_snoc.
      + rewrite <- H1, H2. destruct x eqn:Er; try (rewrite <- (E3 ltac:(discriminate)); reflexivity).
        destruct (E2 eq_refl) as [y Ey]. subst r. rewrite !map_app, !app_length. cbn. lia.
      + exists r'. reflexivity.
      + reflexivity.
      + destruct x eqn:Er; try exact H4. apply NoDup_end; [exact H4|].
        unfold x, add_answer in Er. destruct (cap <=? length l)%nat; [discriminate|].
        destruct (in_dec Pos.eq_dec o l); [discriminate|assumption].
      + intros y Hy.
        assert (HC : In (Some y) (v_slots w) \/ (x = ok /\ y = o)).
        { rewrite H2. destruct x eqn:Er;
          try (rewrite <- (E3 ltac:(discriminate)) in Hy; left; exact Hy).
          destruct (E2 eq_refl) as [z Ez]. subst r.
          rewrite !in_app_iff, map_app, in_app_iff in *. cbn in *.
          destruct Hy as [[Hy|[Hy|[]]]|Hy]; [tauto| |tauto]. inversion Hy. tauto. }
        unfold vadded. rewrite in_app_iff. destruct HC as [HC|[HC ->]].
        * left. apply H5, HC.
        * right. left. rewrite HC. reflexivity.
      + constructor; [exact H6|]. reflexivity.
      + exact H7.
    - intros k Hk. rewrite H2 in Hk.
      destruct x eqn:Er; try (rewrite <- (E3 ltac:(discriminate)); exact Hk).
      destruct (E2 eq_refl) as [y Ey]. subst r. eapply nzs_write. exact Hk.
    - eexists. reflexivity.
  Qed.

  Lemma vinv_remove w o a n e :
    vinv w -> remove_observer Max (v_slots w) (v_cnt w) o = Ok (a, n, e) ->
    e = remove_answer (vmembers (v_log w)) o /\
    vext w (vemit (VW (v_val w) a n (v_mirror w) (v_log w)) (VRet (VRemove o) (RErr e))).
  Proof.
    intros I E. pose proof (vinv_le w I) as HLE. destruct I as [H1 [r H2] H3 H4 H5 H6 H7].
    set (l := vmembers (v_log w)) in *.
    destruct (remove_repr Max l r o) as (g & E1 & E2 & E3); [lia|].
    rewrite H2, H3, E1 in E. inversion E; subst a n e. clear E E1. split; [reflexivity|].
    set (x := remove_answer l o) in *.
    assert (EM : vmembers (v_log w ++ [VRet (VRemove o) (RErr x)]) = remove Pos.eq_dec o l).
    { rewrite vmembers_snoc. fold l. unfold x, remove_answer.
      destruct (in_dec Pos.eq_dec o l) as [H|H]; [reflexivity|].
      cbn [vmember_step]. symmetry. apply remove_notin. exact H. }
    unfold vemit. split; cbn [v_slots v_cnt v_log v_val v_mirror].
    - split; cbn [v_slots v_cnt v_log v_val]; rewrite ?EM, ?math_snoc.
      + rewrite <- H1, H2. rewrite !app_length, !map_length, app_length. lia.
      + exists (map Some g ++ r). rewrite map_app, app_assoc. reflexivity.
      + reflexivity.
      + apply NoDup_rm. exact H4.
      + intros y Hy. unfold vadded. rewrite in_app_iff. left. apply H5. rewrite H2.
        rewrite in_app_iff in *. destruct Hy as [Hy|Hy]; [left|tauto].
        apply in_map_iff in Hy. destruct Hy as (z & Hz & Hy). inversion Hz; subst z.
        apply in_map. rewrite in_app_iff in Hy. destruct Hy as [Hy|Hy].
        * apply in_remove in Hy. tauto.
        * apply E3, Hy.
      + constructor; [exact H6|]. reflexivity.
      + exact H7.
    - intros k Hk. rewrite H2 in Hk. eapply nzs_replace; [|exact Hk]. rewrite app_length. lia.
    - eexists. reflexivity.
  Qed.

  Lemma vinv_apply w o : vinv w ->
    vext w (vemit (VW (apply_atomic t (v_val w) o) (v_slots w) (v_cnt w) (v_mirror w) (v_log w)) (Applied o)).
  Proof.
    intros [H1 H2 H3 H4 H5 H6 H7]. unfold vemit. split; cbn [v_slots v_cnt v_log v_val v_mirror].
    - split; cbn [v_slots v_cnt v_log v_val]; rewrite ?vmembers_snoc, ?math_snoc; try assumption.
      + intros x Hx. unfold vadded. rewrite in_app_iff. left. apply H5, Hx.
      + constructor; [assumption|exact Logic.I].
      + rewrite H7. apply apply_conv. exact T.
    - tauto.
    - eexists. reflexivity.
  Qed.

  Lemma vinv_cleared w : vinv w ->
    vext w (vemit (VW (v_val w) (v_slots w) 0 (v_mirror w) (v_log w)) (VRet VClear RUnit)).
  Proof.
    intros [H1 H2 H3 H4 H5 H6 H7]. unfold vemit. split; cbn [v_slots v_cnt v_log v_val v_mirror].
    - split; cbn [v_slots v_cnt v_log v_val]; rewrite ?vmembers_snoc, ?math_snoc; cbn [vmember_step math_step].
      + exact H1.
      + exists (v_slots w). reflexivity.
      + reflexivity.
      + constructor.
      + intros x Hx. unfold vadded. rewrite in_app_iff. left. apply H5, Hx.
      + constructor; [assumption|exact Logic.I].
      + exact H7.
    - tauto.
    - eexists. reflexivity.
  Qed.

  Lemma vrun_safe f : forall w c, vinv w -> vsafe2 w (vrun f w c).
  Proof.
    induction f as [|f IH]; intros w c I; [exact Logic.I|].
    cbn [ValuesModel.vrun]. destruct c as [o|o| |n|o].
    - destruct (add_observer Max (v_slots w) (v_cnt w) o) as [[[a n] e]| |] eqn:E; cbn [bind].
      + apply (vinv_add w o a n e I E).
      + exfalso. destruct (vi_repr w I) as [r H2]. rewrite H2, (vi_cnt w I) in E.
        destruct (add_repr Max (vmembers (v_log w)) r o) as (r' & E1 & _); [rewrite <- H2; apply (vi_len w I)|].
        rewrite E1 in E. discriminate.
      + exact Logic.I.
    - destruct (remove_observer Max (v_slots w) (v_cnt w) o) as [[[a n] e]| |] eqn:E; cbn [bind].
      + apply (vinv_remove w o a n e I E).
      + exfalso. destruct (vi_repr w I) as [r H2]. pose proof (vinv_le w I). rewrite H2, (vi_cnt w I) in E.
        destruct (remove_repr Max (vmembers (v_log w)) r o) as (g & E1 & _); [rewrite <- (vi_cnt w I); assumption|].
        rewrite E1 in E. discriminate.
      + exact Logic.I.
    - pose proof (vloop_safe (vrun f) IH (vcall_disc on_disc (vrun f)) (v_cnt w)
                    (fun i w0 I0 N0 L0 => vdisc_safe (vrun f) IH i (v_cnt w) w0 I0 N0 L0)
                    (v_cnt w) 0 w I (vinv_nz w I) ltac:(lia)) as L.
      destruct (vloop (vcall_disc on_disc (vrun f)) 0 (v_cnt w) w) as [w1| |]; cbn [bind] in *; try exact L.
      cbn [vsafe2]. eapply vext_trans; [exact L|]. apply vinv_cleared. apply L.
    - pose proof (vnotify_safe (vrun f) IH (conv t n) w I) as L.
      destruct (vnotify Max on_update (vrun f) (conv t n) w) as [[w1 e]| |]; cbn [bind] in *; try exact L.
      cbn [vsafe2 vsafe] in *. eapply vext_trans; [exact L|].
      replace w1 with (VW (v_val w1) (v_slots w1) (v_cnt w1) (v_mirror w1) (v_log w1)) at 2 by (destruct w1; reflexivity).
      apply vemit_plain; [apply L|exact Logic.I|reflexivity|reflexivity].
    - destruct (published t (v_val w) o) as [p| |] eqn:EP; cbn [bind].
      + pose proof (vinv_apply w o I) as A. set (w0 := vemit _ (Applied o)) in *.
        pose proof (vnotify_safe (vrun f) IH p w0 (ve_inv _ _ A)) as L.
        destruct (vnotify Max on_update (vrun f) p w0) as [[w1 e]| |]; cbn [bind] in *; try exact L.
        cbn [vsafe2 vsafe] in *. eapply vext_trans; [exact A|]. eapply vext_trans; [exact L|].
        replace w1 with (VW (v_val w1) (v_slots w1) (v_cnt w1) (v_mirror w1) (v_log w1)) at 2 by (destruct w1; reflexivity).
        apply vemit_plain; [apply L|exact Logic.I|reflexivity|reflexivity].
      + destruct (proj1 (proj1 (published_ub t (v_val w) o)) EP) as [HR _]. exact HR.
      + exact Logic.I.
  Qed.

  Lemma vrun_ext f w c w' r : vinv w -> vrun f w c = Ok (w', r) -> vext w w'.
  Proof. intros I E. pose proof (vrun_safe f w c I) as P. rewrite E in P. exact P. Qed.

  Lemma vrun_all_ext f l : forall w w', vinv w ->
    vrun_all t Max on_update on_disc f w l = Ok w' -> vext w w'.
  Proof.
    induction l as [|c l IH]; intros w w' I E; cbn [vrun_all] in E.
    - inversion E; subst. apply vext_refl. exact I.
    - destruct (vrun f w c) as [[w1 e]| |] eqn:E1; cbn [bind] in E; try discriminate.
      pose proof (vrun_ext f w c w1 e I E1) as X.
      eapply vext_trans; [exact X|]. apply IH; [apply X|exact E].
  Qed.

  Lemma vreach_inv w : vreaches t Max on_update on_disc w -> vinv w.
  Proof.
    intros (m & f & l & E). exact (ve_inv _ _ (vrun_all_ext f l _ w (vinv_fresh m) E)).
  Qed.

  Lemma vgood_split log : vgood log -> forall p e q, log = p ++ e :: q -> vgood_ev p e.
  Proof.
    induction 1 as [|log e0 H IH G]; intros p e q E.
    - destruct p; discriminate.
    - destruct q as [|z q] using rev_ind.
      + apply app_inj_tail in E. destruct E as [-> ->]. exact G.
      + clear IHq. rewrite app_comm_cons, app_assoc in E. apply app_inj_tail in E.
        destruct E as [E _]. eapply IH. exact E.
  Qed.

  (** ** passive callbacks: exact effect of each call *)
  Section Passive.
    Hypothesis P1 : passive on_update.
    Hypothesis P2 : passive_disc on_disc.

    Lemma store_all_out l n : forall m o, ~ In o l -> dv_store_all l n m o = m o.
    Proof.
      induction l as [|x l IH]; intros m o H; cbn [dv_store_all]; [reflexivity|].
      rewrite IH by (intros HI; apply H; right; exact HI). unfold set_mirror.
      destruct (Pos.eqb_spec o x); [|reflexivity]. subst. exfalso. apply H. left. reflexivity.
    Qed.
    Lemma store_all_in l n : forall m o, In o l -> dv_store_all l n m o = n.
    Proof.
      induction l as [|x l IH]; intros m o H; cbn [dv_store_all]; [destruct H|].
      destruct (in_dec Pos.eq_dec o l) as [HI|HI]; [apply IH, HI|].
      rewrite store_all_out by exact HI. destruct H as [->|H]; [|contradiction].
      unfold set_mirror. rewrite Pos.eqb_refl. reflexivity.
    Qed.

    Lemma pdata_loop step n l : forall p r w, v_slots w = map Some (p ++ l) ++ r ->
      vloop (vcall_data on_update step n) (length p) (length l) w
      = Ok (VW (v_val w) (v_slots w) (v_cnt w) (dv_store_all l n (v_mirror w))
               (v_log w ++ map (fun o => Store o n) l)).
    Proof.
      induction l as [|o l IH]; intros p r w Hs; cbn [length vloop].
      - cbn. rewrite app_nil_r. destruct w; reflexivity.
      - unfold vcall_data at 1. rewrite Hs.
        replace (map Some (p ++ o :: l) ++ r) with (map Some p ++ Some o :: map Some l ++ r)
          by (rewrite map_app, <- app_assoc; reflexivity).
        rewrite <- (map_length (@Some positive) p) at 1. rewrite slot_app. cbn [bind]. rewrite P1. cbn [vbody_run bind].
        match goal with |- vloop _ _ _ ?w1 = _ => assert (H := IH (p ++ [o]) r w1) end.
        rewrite app_length in H. cbn [length] in H. replace (length p + 1)%nat with (S (length p)) in H by lia.
        rewrite H by (cbn [vemit v_slots]; rewrite <- app_assoc; cbn [app]; rewrite map_app, <- app_assoc; reflexivity).
        cbn [vemit v_slots v_val v_cnt v_mirror v_log map dv_store_all].
        rewrite <- app_assoc. reflexivity.
    Qed.

    Lemma pdisc_loop step l : forall p r w, v_slots w = map Some (p ++ l) ++ r ->
      vloop (vcall_disc on_disc step) (length p) (length l) w
      = Ok (VW (v_val w) (v_slots w) (v_cnt w) (v_mirror w) (v_log w ++ map VDisc l)).
    Proof.
      induction l as [|o l IH]; intros p r w Hs; cbn [length vloop].
      - cbn. rewrite app_nil_r. destruct w; reflexivity.
      - unfold vcall_disc at 1. rewrite Hs.
        replace (map Some (p ++ o :: l) ++ r) with (map Some p ++ Some o :: map Some l ++ r)
          by (rewrite map_app, <- app_assoc; reflexivity).
        rewrite <- (map_length (@Some positive) p) at 1. rewrite slot_app. cbn [bind]. rewrite P2. cbn [vbody_run bind].
        match goal with |- vloop _ _ _ ?w1 = _ => assert (H := IH (p ++ [o]) r w1) end.
        rewrite app_length in H. cbn [length] in H. replace (length p + 1)%nat with (S (length p)) in H by lia.
        rewrite H by (cbn [vemit v_slots]; rewrite Hs, <- app_assoc; cbn [app]; rewrite map_app, <- app_assoc; reflexivity).
        cbn [vemit v_slots v_val v_cnt v_mirror v_log map].
        rewrite <- app_assoc. try rewrite Hs, map_app, <- app_assoc. reflexivity.
    Qed.

    (** What each call appends to the log and does to the observeds. *)
    Definition effect (w : vworld) (c : vcall) (r : vres) : list vev :=
      match c, r with
      | VOp o, RVal p => Applied o :: map (fun x => Store x p) (vmembers (v_log w))
      | VNotify n, _ => map (fun x => Store x (conv t n)) (vmembers (v_log w))
      | VClear, _ => map VDisc (vmembers (v_log w))
      | _, _ => []
      end.
    Definition mirror_after (w : vworld) (c : vcall) (r : vres) : addr -> Z :=
      match c, r with
      | VOp o, RVal p => dv_store_all (vmembers (v_log w)) p (v_mirror w)
      | VNotify n, _ => dv_store_all (vmembers (v_log w)) (conv t n) (v_mirror w)
      | _, _ => v_mirror w
      end.

    Lemma passive_run f w c w' r : vinv w -> vrun f w c = Ok (w', r) ->
      v_log w' = v_log w ++ effect w c r ++ [VRet c r] /\
      v_mirror w' = mirror_after w c r /\
      match c with
      | VOp o => v_val w' = apply_atomic t (v_val w) o /\ exists p, r = RVal p /\ published t (v_val w) o = Ok p
      | VNotify _ => v_val w' = v_val w /\ r = RErr ok
      | VAdd o => v_val w' = v_val w /\ r = RErr (add_answer cap (vmembers (v_log w)) o)
      | VRemove o => v_val w' = v_val w /\ r = RErr (remove_answer (vmembers (v_log w)) o)
      | VClear => v_val w' = v_val w /\ r = RUnit
      end.
    Proof.
      intros I E. destruct f as [|f]; [discriminate|]. cbn [ValuesModel.vrun] in E.
      pose proof (vinv_le w I) as HLE. destruct (vi_repr w I) as [rr H2]. pose proof (vi_cnt w I) as H3.
      destruct c as [o|o| |n|o].
      - destruct (add_observer Max (v_slots w) (v_cnt w) o) as [[[a n] e]| |] eqn:EA; cbn [bind] in E; try discriminate.
        inversion E; subst w' r. destruct (vinv_add w o a n e I EA) as [-> _].
        cbn. tauto.
      - destruct (remove_observer Max (v_slots w) (v_cnt w) o) as [[[a n] e]| |] eqn:EA; cbn [bind] in E; try discriminate.
        inversion E; subst w' r. destruct (vinv_remove w o a n e I EA) as [-> _].
        cbn. tauto.
      - pose proof (pdisc_loop (vrun f) (vmembers (v_log w)) [] rr w H2) as L. cbn [length] in L.
        rewrite <- H3 in L. rewrite L in E. cbn [bind] in E. inversion E; subst w' r.
        cbn. rewrite <- app_assoc. tauto.
      - unfold vnotify in E. replace (cap <? v_cnt w)%nat with false in E by lia.
        pose proof (pdata_loop (vrun f) (conv t n) (vmembers (v_log w)) [] rr w H2) as L. cbn [length] in L.
        rewrite <- H3 in L. rewrite L in E. cbn [bind] in E. inversion E; subst w' r.
        cbn. rewrite <- app_assoc. tauto.
      - destruct (published t (v_val w) o) as [p| |] eqn:EP; cbn [bind] in E; try discriminate.
        set (w0 := vemit _ (Applied o)) in E.
        unfold vnotify in E. change (v_cnt w0) with (v_cnt w) in E.
        replace (cap <? v_cnt w)%nat with false in E by lia.
        pose proof (pdata_loop (vrun f) p (vmembers (v_log w)) [] rr w0 H2) as L. cbn [length] in L.
        rewrite <- H3 in L. rewrite L in E. cbn [bind] in E. inversion E; subst w' r.
        cbn. rewrite <- app_assoc. split; [rewrite <- app_assoc; reflexivity|]. split; [reflexivity|].
        split; [reflexivity|]. exists p. split; reflexivity.
    Qed.

    (** Passive calls come back, except for the operators' overflow. *)
    Lemma passive_total f w c : vinv w ->
      match c with VOp o => ~ overflows t (v_val w) o | _ => True end ->
      exists w' r, vrun (S f) w c = Ok (w', r).
    Proof.
      intros I HO. pose proof (vinv_le w I) as HLE. destruct (vi_repr w I) as [rr H2]. pose proof (vi_cnt w I) as H3.
      cbn [ValuesModel.vrun]. destruct c as [o|o| |n|o].
      - destruct (add_repr Max (vmembers (v_log w)) rr o) as (r' & E1 & _); [rewrite <- H2; apply (vi_len w I)|].
        rewrite H2, H3, E1. cbn [bind]. eexists. eexists. reflexivity.
      - destruct (remove_repr Max (vmembers (v_log w)) rr o) as (g & E1 & _); [rewrite <- H3; assumption|].
        rewrite H2, H3, E1. cbn [bind]. eexists. eexists. reflexivity.
      - pose proof (pdisc_loop (vrun f) (vmembers (v_log w)) [] rr w H2) as L. cbn [length] in L.
        rewrite <- H3 in L. rewrite L. eexists. eexists. reflexivity.
      - unfold vnotify. replace (cap <? v_cnt w)%nat with false by lia.
        pose proof (pdata_loop (vrun f) (conv t n) (vmembers (v_log w)) [] rr w H2) as L. cbn [length] in L.
        rewrite <- H3 in L. rewrite L. eexists. eexists. reflexivity.
      - destruct (published_ub t (v_val w) o) as [U1 U2].
        destruct (published t (v_val w) o) as [p| |] eqn:EP; cbn [bind]; [|tauto|congruence].
        set (w0 := vemit _ (Applied o)).
        unfold vnotify. change (v_cnt w0) with (v_cnt w).
        replace (cap <? v_cnt w)%nat with false by lia.
        pose proof (pdata_loop (vrun f) p (vmembers (v_log w)) [] rr w0 H2) as L. cbn [length] in L.
        rewrite <- H3 in L. rewrite L. eexists. eexists. reflexivity.
    Qed.
  End Passive.
End Inv.
