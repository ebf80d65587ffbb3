From Verif Require Import ObsThrowSpec ObserverProofs1 ObserverProofs2 ObserverProofs4 ObsThrowProofs.

Section Plain.
  Variable V : Type.
  Variable self : addr.
  Variable Max : Z.
  Variable on_data : list (tev V) -> addr -> V -> tbody V.
  Variable on_disc : list (tev V) -> addr -> tbody V.

  (** A loop over observers that return or throw. *)
  Lemma plain_loop (bad : addr -> option exc) (mk mt : addr -> tev V) f :
    (forall i w o, slot (t_slots w) i = Ok (Some o) ->
       f i w = match bad o with None => TOk (temit w (mk o)) (TRet ok) | Some _ => TEnd (t_log w ++ [mk o; mt o]) end) ->
    forall todo done rest w, t_slots w = map Some (done ++ todo) ++ rest ->
    (Forall (fun o => bad o = None) todo ->
       tloop f (length done) (length todo) w = TOk (TW (t_slots w) (t_cnt w) (t_inside w) (t_log w ++ map mk todo)) (TRet ok)) /\
    (forall pre o post, todo = pre ++ o :: post -> Forall (fun o => bad o = None) pre -> bad o <> None ->
       tloop f (length done) (length todo) w = TEnd (t_log w ++ map mk (pre ++ [o]) ++ [mt o])).
  Proof.
    intros HF. induction todo as [| p todo IH]; intros done rest w HS.
    - split.
      + intros _. cbn. rewrite app_nil_r. destruct w; reflexivity.
      + intros pre o post H. destruct pre; discriminate.
    - assert (HP : slot (t_slots w) (length done) = Ok (Some p)).
      { rewrite HS, map_app, <- app_assoc. cbn [map app]. rewrite <- (map_length Some done) at 1. apply slot_app. }
      assert (HS' : t_slots (temit w (mk p)) = map Some ((done ++ [p]) ++ todo) ++ rest).
      { cbn. rewrite HS, <- app_assoc. reflexivity. }
      destruct (IH (done ++ [p]) rest (temit w (mk p)) HS') as [H1 H2].
      rewrite app_length, Nat.add_comm in H1, H2. cbn [length Nat.add] in H1, H2 |- *.
      split.
      + intros HB. inversion HB as [| q l HB1 HB2]; subst. cbn [ObsThrowModel.tloop]. rewrite (HF _ _ _ HP), HB1.
        cbn [ObsThrowModel.tthen]. rewrite (H1 HB2). cbn. rewrite <- app_assoc. reflexivity.
      + intros pre o post E HB HO. cbn [ObsThrowModel.tloop]. rewrite (HF _ _ _ HP). destruct pre as [| q pre].
        * injection E as -> ->. destruct (bad o); [| contradiction]. cbn. reflexivity.
        * injection E as -> ->. inversion HB as [| q' l HB1 HB2]; subst. rewrite HB1. cbn [ObsThrowModel.tthen].
          rewrite (H2 pre o post eq_refl HB2 HO). cbn. rewrite <- app_assoc. reflexivity.
  Qed.

  Lemma plain_disc_round bad f i w o : on_disc = plain_disc bad -> slot (t_slots w) i = Ok (Some o) ->
    tcall_disc self on_disc f i w =
    match bad o with None => TOk (temit w (TDisc self o)) (TRet ok) | Some _ => TEnd (t_log w ++ [TDisc self o; TDiscThrew o]) end.
  Proof.
    intros -> HS. unfold tcall_disc. rewrite HS. cbn. unfold plain_disc. destruct (bad o); cbn; [rewrite <- app_assoc |]; reflexivity.
  Qed.
  Lemma plain_data_round bad f v i w o : on_data = plain_data bad -> slot (t_slots w) i = Ok (Some o) ->
    tcall_data self on_data f v i w =
    match bad o v with None => TOk (temit w (TData self o v)) (TRet ok) | Some _ => TEnd (t_log w ++ [TData self o v; TDataThrew o]) end.
  Proof.
    intros -> HS. unfold tcall_data. rewrite HS. cbn. unfold plain_data. destruct (bad o v); cbn; [rewrite <- app_assoc |]; reflexivity.
  Qed.

  Lemma plain_clear bad f w : on_disc = plain_disc bad -> treaches self Max on_data on_disc w ->
    (Forall (fun o => bad o = None) (tmembers (t_log w)) -> exists w',
       trun self Max on_data on_disc (S f) w Clear = TOk w' (TRet ok) /\ t_cnt w' = 0%nat /\
       t_log w' = t_log w ++ map (TDisc self) (tmembers (t_log w)) ++ [TLeft Clear (TRet ok)]) /\
    (forall pre o post, tmembers (t_log w) = pre ++ o :: post -> Forall (fun o => bad o = None) pre -> bad o <> None ->
       trun self Max on_data on_disc (S f) w Clear = TEnd (t_log w ++ map (TDisc self) (pre ++ [o]) ++ [TDiscThrew o])).
  Proof.
    intros HB HR. destruct (treach_inv _ _ _ _ _ _ HR) as (_ & _ & _ & HN & rest & HS).
    destruct (plain_loop bad (TDisc self) TDiscThrew (tcall_disc self on_disc (trun self Max on_data on_disc f))
      (fun i w o H => plain_disc_round bad _ i w o HB H) (tmembers (t_log w)) [] rest w HS) as [H1 H2].
    cbn [length] in H1, H2. rewrite <- HN in H1, H2. split.
    - intros HF. eexists. split.
      + cbn [ObsThrowModel.trun]. rewrite (H1 HF). cbn [ObsThrowModel.tthen]. reflexivity.
      + cbn. rewrite <- app_assoc. auto.
    - intros pre o post E HF HO. cbn [ObsThrowModel.trun]. rewrite (H2 _ _ _ E HF HO). reflexivity.
  Qed.

  Lemma plain_notify bad f w v : on_data = plain_data bad -> treaches self Max on_data on_disc w ->
    (Forall (fun o => bad o v = None) (tmembers (t_log w)) -> exists w',
       trun self Max on_data on_disc (S f) w (Notify v) = TOk w' (TRet ok) /\
       t_log w' = t_log w ++ map (fun o => TData self o v) (tmembers (t_log w)) ++ [TLeft (Notify v) (TRet ok)]) /\
    (forall pre o post, tmembers (t_log w) = pre ++ o :: post -> Forall (fun o => bad o v = None) pre -> bad o v <> None ->
       trun self Max on_data on_disc (S f) w (Notify v) = TEnd (t_log w ++ map (fun o => TData self o v) (pre ++ [o]) ++ [TDataThrew o])).
  Proof.
    intros HB HR. destruct (treach_inv _ _ _ _ _ _ HR) as (_ & HI & HF & HN & rest & HS).
    pose proof (inv_le _ _ _ HI) as HL. cbn in HL.
    destruct (plain_loop (fun o => bad o v) (fun o => TData self o v) TDataThrew (tcall_data self on_data (trun self Max on_data on_disc f) v)
      (fun i w o H => plain_data_round bad _ v i w o HB H) (tmembers (t_log w)) [] rest
      (TW (t_slots w) (t_cnt w) true (t_log w)) HS) as [H1 H2].
    cbn [length ObsThrowModel.t_log] in H1, H2. rewrite <- HN in H1, H2.
    assert (HM : (max_observers Max <? t_cnt w)%nat = false) by (apply Nat.ltb_ge; exact HL). split.
    - intros HA. eexists. split.
      + cbn [ObsThrowModel.trun]. rewrite HM, HF, (H1 HA). cbn [ObsThrowModel.tthen]. reflexivity.
      + cbn. rewrite <- app_assoc. auto.
    - intros pre o post E HA HO. cbn [ObsThrowModel.trun]. rewrite HM, HF, (H2 _ _ _ E HA HO). reflexivity.
  Qed.
End Plain.

Section Dynamic.
  Variable V : Type.
  Variable self : addr.
  Variable on_data : list (tev V) -> addr -> V -> tbody V.
  Variable on_disc : list (tev V) -> addr -> tbody V.
  Variable locking : bool.
  Notation run1 := (urun self on_data on_disc locking).

  Lemma tmembers_snoc (log : list (tev V)) e : tmembers (log ++ [e]) = tmember_step (tmembers log) e.
  Proof. unfold tmembers. rewrite fold_left_app. reflexivity. Qed.

  Definition uinv (w : uworld V) : Prop := u_obs w = tmembers (u_log w) /\ NoDup (u_obs w).
  (** What any activity does. *)
  Definition usafe (w : uworld V) (x : tres V (uworld V)) : Prop :=
    match x with
    | TOk w' _ => uinv w' /\ u_locked w' = u_locked w /\ exists evs, u_log w' = u_log w ++ evs
    | TEnd log => exists evs o, log = u_log w ++ evs ++ [TDataThrew o]
    | _ => True
    end.

  Lemma usafe_after w w1 evs x : u_log w1 = u_log w ++ evs -> u_locked w1 = u_locked w -> usafe w1 x -> usafe w x.
  Proof.
    intros HL HK H. destruct x as [w' r | log | |]; cbn in *; auto.
    - destruct H as (HI & HK1 & evs1 & HL1). split; [auto |]. split; [congruence |]. exists (evs ++ evs1). rewrite HL1, HL, app_assoc. reflexivity.
    - destruct H as (evs1 & o & ->). exists (evs ++ evs1), o. rewrite HL, !app_assoc. reflexivity.
  Qed.
  Lemma uinv_emit w e : uinv w -> tmember_step (tmembers (u_log w)) e = tmembers (u_log w) -> uinv (uemit w e).
  Proof. intros [H1 H2] H. split; [| exact H2]. change (u_obs w = tmembers (u_log w ++ [e])). rewrite tmembers_snoc, H. exact H1. Qed.

  Lemma ubody_safe step : (forall w c, uinv w -> usafe w (step w c)) ->
    forall b w, uinv w -> usafe w (tbody_run step b w).
  Proof.
    intros HS. induction b as [| x | c k IH]; intros w HI; cbn.
    - split; auto. split; auto. exists []. rewrite app_nil_r. reflexivity.
    - split; auto. split; auto. exists []. rewrite app_nil_r. reflexivity.
    - pose proof (HS w c HI) as H. destruct (step w c) as [w1 r | log | |]; cbn in H; auto.
      destruct H as (HI1 & HK & evs & HL). eapply usafe_after; eauto.
  Qed.
  Lemma uround_disc_safe step o w : (forall w c, uinv w -> usafe w (step w c)) -> uinv w ->
    usafe w (uround_disc self on_disc step o w).
  Proof.
    intros HS HI. unfold uround_disc. pose proof (uinv_emit w (TDisc self o) HI eq_refl) as HI1.
    pose proof (ubody_safe step HS (on_disc (u_log w) o) _ HI1) as H.
    destruct (tbody_run _ _ _) as [w' [e | x] | log | |]; cbn [ObsThrowModel.tthen].
    - destruct (u_ver w' =? u_ver w)%nat; [| exact Logic.I]. eapply (usafe_after w _ [TDisc self o]) in H; [| reflexivity | reflexivity]. exact H.
    - eapply (usafe_after w _ [TDisc self o]) in H; [| reflexivity | reflexivity]. destruct H as (HI2 & HK & evs & HL).
      split; [apply uinv_emit; auto |]. split; [exact HK |]. exists (evs ++ [TDiscThrew o]). cbn. rewrite HL, app_assoc. reflexivity.
    - eapply (usafe_after w _ [TDisc self o]) in H; [| reflexivity | reflexivity]. exact H.
    - exact Logic.I.
    - exact Logic.I.
  Qed.
  Lemma uround_data_safe step v o w : (forall w c, uinv w -> usafe w (step w c)) -> uinv w ->
    usafe w (uround_data self on_data step v o w).
  Proof.
    intros HS HI. unfold uround_data. pose proof (uinv_emit w (TData self o v) HI eq_refl) as HI1.
    pose proof (ubody_safe step HS (on_data (u_log w) o v) _ HI1) as H.
    destruct (tbody_run _ _ _) as [w' [e | x] | log | |]; cbn [ObsThrowModel.tthen].
    - destruct (u_ver w' =? u_ver w)%nat; [| exact Logic.I]. eapply (usafe_after w _ [TData self o v]) in H; [| reflexivity | reflexivity]. exact H.
    - eapply (usafe_after w _ [TData self o v]) in H; [| reflexivity | reflexivity]. destruct H as (HI2 & HK & evs & HL).
      exists evs, o. rewrite HL, app_assoc. reflexivity.
    - eapply (usafe_after w _ [TData self o v]) in H; [| reflexivity | reflexivity]. exact H.
    - exact Logic.I.
    - exact Logic.I.
  Qed.
  Lemma uloop_safe f : (forall o w, uinv w -> usafe w (f o w)) -> forall l w, uinv w -> usafe w (uloop f l w).
  Proof.
    intros HF. induction l as [| o l IH]; intros w HI; cbn.
    - split; auto. split; auto. exists []. rewrite app_nil_r. reflexivity.
    - pose proof (HF o w HI) as H. destruct (f o w) as [w1 [e | x] | log | |]; cbn in H |- *; auto.
      destruct H as (HI1 & HK & evs & HL). eapply usafe_after; eauto.
  Qed.

  (** The lock: taking it and giving it back. *)
  Lemma uacquire_cases (w : uworld V) : uacquire locking w = UB \/
    exists w0, uacquire locking w = Ok w0 /\ u_obs w0 = u_obs w /\ u_log w0 = u_log w /\ u_ver w0 = u_ver w /\
      (locking = true -> u_locked w = false /\ u_locked w0 = true) /\ (locking = false -> u_locked w0 = u_locked w).
  Proof.
    unfold uacquire. destruct locking; [destruct (u_locked w) eqn:E; [auto |] |]; right; eexists; split; try reflexivity; cbn; auto.
    all: repeat split; auto; discriminate.
  Qed.

  (** The state just before the call is left. *)
  Definition uleft (w0 w1 : uworld V) (c : call V) (r : tout) : Prop :=
    NoDup (u_obs w1) /\ u_locked w1 = u_locked w0 /\ (exists evs, u_log w1 = u_log w0 ++ evs) /\
    u_obs w1 = tmember_step (tmembers (u_log w1)) (TLeft c r).

  Lemma uinner_safe step w0 c : (forall w c, uinv w -> usafe w (step w c)) -> uinv w0 ->
    match uinner self on_data on_disc step w0 c with
    | TOk w1 r => uleft w0 w1 c r
    | TEnd log => exists evs o, log = u_log w0 ++ evs ++ [TDataThrew o]
    | _ => True
    end.
  Proof.
    intros HS HI. destruct HI as [HO HN]. destruct c as [o | o | | v]; cbn [ObsThrowModel.uinner].
    - rewrite dcontains_spec. destruct (in_dec Pos.eq_dec o (u_obs w0)) as [H | H]; cbn [negb]; unfold uleft; cbn.
      + rewrite HO at 2. repeat split; auto. exists []. rewrite app_nil_r. reflexivity.
      + rewrite HO. repeat split; auto; [apply NoDup_snoc; rewrite <- HO; auto |]. exists []. rewrite app_nil_r. reflexivity.
    - rewrite filter_remove. destruct (length (u_obs w0) - length (remove Pos.eq_dec o (u_obs w0)) =? 0)%nat; unfold uleft; cbn.
      + repeat split; auto. exists []. rewrite app_nil_r. reflexivity.
      + repeat split; [apply NoDup_remove_all; auto | | rewrite HO; reflexivity]. exists []. rewrite app_nil_r. reflexivity.
    - pose proof (uloop_safe (uround_disc self on_disc step) (fun o w H => uround_disc_safe step o w HS H) (u_obs w0) w0 (conj HO HN)) as H.
      destruct (uloop _ _ w0) as [w1 [e | x] | log | |]; cbn [ObsThrowModel.tthen]; auto.
      + destruct H as ((HO1 & HN1) & HK & HL). unfold uleft; cbn. repeat split; auto. constructor.
      + destruct H as ((HO1 & HN1) & HK & HL). unfold uleft; cbn. repeat split; auto.
    - pose proof (uloop_safe (uround_data self on_data step v) (fun o w H => uround_data_safe step v o w HS H) (u_obs w0) w0 (conj HO HN)) as H.
      destruct (uloop _ _ w0) as [w1 r | log | |]; auto.
      destruct H as ((HO1 & HN1) & HK & HL). unfold uleft; cbn. repeat split; auto.
  Qed.

  Lemma urun_safe : forall f w c, uinv w -> usafe w (run1 f w c).
  Proof.
    induction f as [| f IH]; intros w c HI; [exact Logic.I |]. cbn [ObsThrowModel.urun].
    destruct (uacquire_cases w) as [-> | (w0 & -> & HO & HL & _ & HT & HF)]; [exact Logic.I |]. cbn [ObsThrowModel.tlift].
    assert (HI0 : uinv w0) by (destruct HI; split; congruence).
    pose proof (uinner_safe (run1 f) w0 c IH HI0) as H.
    destruct (uinner _ _ _ _ w0 c) as [w1 r | log | |]; auto.
    - destruct H as (HN & HK & (evs & HE) & HM). split; [split |split].
      + unfold urelease. destruct locking; cbn [ObsThrowModel.uemit ObsThrowModel.u_obs ObsThrowModel.u_log]; rewrite tmembers_snoc; exact HM.
      + unfold urelease. destruct locking; cbn; exact HN.
      + unfold urelease. destruct locking; cbn; [destruct (HT eq_refl); congruence |]. rewrite HK. auto.
      + exists (evs ++ [TLeft c r]). unfold urelease. destruct locking; cbn; rewrite HE, HL, app_assoc; reflexivity.
    - cbn. rewrite <- HL. exact H.
  Qed.

  Lemma ureach_inv w : ureaches self on_data on_disc locking w -> uinv w /\ u_locked w = false.
  Proof.
    intros (f & l & H). assert (HI : uinv ufresh) by (split; [reflexivity | constructor]).
    assert (HK : u_locked (@ufresh V) = false) by reflexivity.
    revert H HI HK. generalize (@ufresh V). induction l as [| c l IH]; intros w0 H HI HK; cbn in H.
    - injection H as <-. auto.
    - pose proof (urun_safe f w0 c HI) as HS. destruct (run1 f w0 c) as [w1 r | log | |]; try discriminate.
      destruct HS as (HI1 & HK1 & _). apply (IH w1); auto. congruence.
  Qed.
End Dynamic.
