From Verif Require Import ObsThrowSpec ObserverProofs1 ObserverProofs2 ObserverProofs4 ObsThrowProofs ObsThrowProofs2.

Lemma remove_nothing (o : addr) l : (length l - length (remove Pos.eq_dec o l) =? 0)%nat = true <-> ~ In o l.
Proof.
  rewrite Nat.eqb_eq. split.
  - intros H HI. pose proof (remove_length_lt Pos.eq_dec l o HI). lia.
  - intros H. rewrite remove_notin; auto. lia.
Qed.

Section Dynamic.
  Variable V : Type.
  Variable self : addr.
  Variable on_data : list (tev V) -> addr -> V -> tbody V.
  Variable on_disc : list (tev V) -> addr -> tbody V.
  Variable locking : bool.
  Notation run1 := (urun self on_data on_disc locking).

  Lemma data_loop_returns step v : forall l w w' r, uloop (uround_data self on_data step v) l w = TOk w' r -> r = TRet ok.
  Proof.
    induction l as [| o l IH]; intros w w' r H; cbn in H; [congruence |].
    apply tthen_ok in H as [(w1 & e & H1 & H) | (w1 & x & H1 & H)]; [eauto |].
    exfalso. unfold uround_data in H1. apply tthen_ok in H1 as [(w2 & e & H1 & H2) | (w2 & y & H1 & H2)]; [| discriminate].
    destruct (u_ver w2 =? u_ver w)%nat; discriminate.
  Qed.

  Lemma disc_loop_exc step : (forall w c, uinv V w -> usafe V w (step w c)) ->
    forall l w w' x, uinv V w -> uloop (uround_disc self on_disc step) l w = TOk w' (TExc x) ->
    exists evs o, u_log w' = u_log w ++ evs ++ [TDiscThrew o].
  Proof.
    intros HS. induction l as [| o l IH]; intros w w' x HI H; cbn in H; [congruence |].
    pose proof (uround_disc_safe V self on_disc step o w HS HI) as HR.
    apply tthen_ok in H as [(w1 & e & H1 & H) | (w1 & y & H1 & H)].
    - rewrite H1 in HR. destruct HR as (HI1 & _ & evs & HL). destruct (IH _ _ _ HI1 H) as (evs1 & p & HL1).
      exists (evs ++ evs1), p. rewrite HL1, HL, !app_assoc. reflexivity.
    - injection H as -> ->. unfold uround_disc in H1. apply tthen_ok in H1 as [(w2 & e & H1 & H2) | (w2 & z & H1 & H2)].
      + destruct (u_ver w2 =? u_ver w)%nat; discriminate.
      + injection H2 as <- ->.
        pose proof (ubody_safe V step HS (on_disc (u_log w) o) _ (uinv_emit V w (TDisc self o) HI eq_refl)) as HB.
        rewrite H1 in HB. destruct HB as (_ & _ & evs & HL). exists (TDisc self o :: evs), o. cbn. rewrite HL. cbn.
        rewrite <- !app_assoc. reflexivity.
  Qed.

  (** The parts of a call. *)
  Lemma urun_parts f w c w' r : run1 f w c = TOk w' r -> exists g w0 w1, f = S g /\ u_obs w0 = u_obs w /\ u_log w0 = u_log w /\
    u_locked w0 = (if locking then true else u_locked w) /\
    uinner self on_data on_disc (run1 g) w0 c = TOk w1 r /\ u_obs w' = u_obs w1 /\ u_log w' = u_log w1 ++ [TLeft c r].
  Proof.
    destruct f as [| g]; [discriminate |]. cbn [ObsThrowModel.urun].
    destruct (uacquire_cases V locking w) as [-> | (w0 & -> & HO & HL & _ & HT & HF)]; [discriminate |]. cbn [ObsThrowModel.tlift].
    destruct (uinner _ _ _ _ w0 c) as [w1 r1 | log | |] eqn:E; intros H; try discriminate. injection H as <- <-.
    exists g, w0, w1. repeat split; auto.
    - destruct locking; [apply HT | apply HF]; reflexivity.
    - unfold urelease. destruct locking; reflexivity.
    - unfold urelease. destruct locking; reflexivity.
  Qed.

  Lemma uexceptions f w c w' x : uinv V w -> run1 f w c = TOk w' (TExc x) ->
    match c with
    | Add o => x = Own already_contains /\ In o (tmembers (u_log w)) /\ u_log w' = u_log w ++ [TLeft c (TExc x)]
    | Remove o => x = Own not_found /\ ~ In o (tmembers (u_log w)) /\ u_log w' = u_log w ++ [TLeft c (TExc x)]
    | Clear => exists evs o, u_log w' = u_log w ++ evs ++ [TDiscThrew o; TLeft c (TExc x)]
    | Notify _ => False
    end.
  Proof.
    intros HI H. pose proof (urun_safe V self on_data on_disc locking f w c HI) as HS. rewrite H in HS.
    destruct HS as (_ & _ & evs & HE). destruct HI as [HO HN].
    apply urun_parts in H as (g & w0 & w1 & -> & HO0 & HL0 & _ & H & HO1 & HL1).
    destruct c as [o | o | | v]; cbn [ObsThrowModel.uinner] in H.
    - rewrite dcontains_spec in H. destruct (in_dec Pos.eq_dec o (u_obs w0)) as [HM | HM]; cbn [negb] in H; [| discriminate].
      injection H as <- <-. split; [reflexivity |]. split; [congruence |]. congruence.
    - rewrite filter_remove in H. destruct (length (u_obs w0) - length (remove Pos.eq_dec o (u_obs w0)) =? 0)%nat eqn:E; [| discriminate].
      injection H as <- <-. apply remove_nothing in E. split; [reflexivity |]. split; [congruence |]. congruence.
    - apply tthen_ok in H as [(w2 & e & H1 & H) | (w2 & y & H1 & H)]; [discriminate |]. injection H as <- <-.
      destruct (disc_loop_exc _ (urun_safe V self on_data on_disc locking g) _ w0 _ _ (conj (eq_trans HO0 (eq_trans HO (f_equal tmembers (eq_sym HL0))))
        (eq_ind_r (fun l => NoDup l) HN HO0)) H1) as (evs1 & o & HL).
      exists evs1, o. rewrite HL1, HL, HL0, <- !app_assoc. reflexivity.
    - apply data_loop_returns in H. discriminate.
  Qed.

  (** Adding and removing always come back, and answer by the registered observers. *)
  Lemma uadd_answer f w o : uinv V w -> u_locked w = false -> exists w',
    run1 (S f) w (Add o) = TOk w' (if in_dec Pos.eq_dec o (tmembers (u_log w)) then TExc (Own already_contains) else TRet ok).
  Proof.
    intros [HO HN] HK. cbn [ObsThrowModel.urun]. unfold uacquire. rewrite HK. rewrite <- HO.
    destruct locking; cbn [ObsThrowModel.tlift ObsThrowModel.uinner ObsThrowModel.u_obs]; rewrite dcontains_spec;
      destruct (in_dec Pos.eq_dec o (u_obs w)); cbn [negb]; eauto.
  Qed.
  Lemma uremove_answer f w o : uinv V w -> u_locked w = false -> exists w',
    run1 (S f) w (Remove o) = TOk w' (if in_dec Pos.eq_dec o (tmembers (u_log w)) then TRet ok else TExc (Own not_found)).
  Proof.
    intros [HO HN] HK. cbn [ObsThrowModel.urun]. unfold uacquire. rewrite HK. rewrite <- HO.
    destruct locking; cbn [ObsThrowModel.tlift ObsThrowModel.uinner ObsThrowModel.u_obs]; rewrite filter_remove;
      destruct (length (u_obs w) - length (remove Pos.eq_dec o (u_obs w)) =? 0)%nat eqn:E;
      destruct (in_dec Pos.eq_dec o (u_obs w)) as [HM | HM]; eauto; exfalso.
    1, 3: apply remove_nothing in E; auto.
    all: apply remove_nothing in HM; congruence.
  Qed.

  (** ** observers that return or throw *)
  Lemma uplain_loop (bad : addr -> option exc) (mk mt : addr -> tev V) f :
    (forall w o, f o w = match bad o with None => TOk (uemit w (mk o)) (TRet ok) | Some x => TOk (uemit (uemit w (mk o)) (mt o)) (TExc x) end) ->
    forall l w,
    (Forall (fun o => bad o = None) l ->
       uloop f l w = TOk (UW (u_obs w) (u_ver w) (u_locked w) (u_log w ++ map mk l)) (TRet ok)) /\
    (forall pre o post x, l = pre ++ o :: post -> Forall (fun o => bad o = None) pre -> bad o = Some x ->
       uloop f l w = TOk (UW (u_obs w) (u_ver w) (u_locked w) (u_log w ++ map mk (pre ++ [o]) ++ [mt o])) (TExc x)).
  Proof.
    intros HF. induction l as [| p l IH]; intros w.
    - split.
      + intros _. cbn. rewrite app_nil_r. destruct w; reflexivity.
      + intros pre o post x H. destruct pre; discriminate.
    - destruct (IH (uemit w (mk p))) as [H1 H2]. split.
      + intros HB. inversion HB as [| q l' HB1 HB2]; subst. cbn [ObsThrowModel.uloop]. rewrite HF, HB1.
        cbn [ObsThrowModel.tthen]. rewrite (H1 HB2). cbn. rewrite <- app_assoc. reflexivity.
      + intros pre o post x E HB HO. cbn [ObsThrowModel.uloop]. rewrite HF. destruct pre as [| q pre].
        * injection E as -> ->. rewrite HO. unfold uemit. cbn. rewrite <- app_assoc. reflexivity.
        * injection E as -> ->. inversion HB as [| q' l' HB1 HB2]; subst. rewrite HB1. cbn [ObsThrowModel.tthen].
          rewrite (H2 pre o post x eq_refl HB2 HO). cbn. rewrite <- app_assoc. reflexivity.
  Qed.
  Lemma uplain_data_loop bad f v : on_data = plain_data bad -> forall l w,
    (Forall (fun o => bad o v = None) l ->
       uloop (uround_data self on_data f v) l w = TOk (UW (u_obs w) (u_ver w) (u_locked w) (u_log w ++ map (fun o => TData self o v) l)) (TRet ok)) /\
    (forall pre o post, l = pre ++ o :: post -> Forall (fun o => bad o v = None) pre -> bad o v <> None ->
       uloop (uround_data self on_data f v) l w = TEnd (u_log w ++ map (fun o => TData self o v) (pre ++ [o]) ++ [TDataThrew o])).
  Proof.
    intros HD.
    assert (HF : forall o w, uround_data self on_data f v o w =
      match bad o v with None => TOk (uemit w (TData self o v)) (TRet ok) | Some _ => TEnd (u_log w ++ [TData self o v; TDataThrew o]) end).
    { intros o w. unfold uround_data. rewrite HD. unfold plain_data. destruct (bad o v); cbn.
      - rewrite <- app_assoc. reflexivity.
      - rewrite Nat.eqb_refl. reflexivity. }
    induction l as [| p l IH]; intros w.
    - split.
      + intros _. cbn. rewrite app_nil_r. destruct w; reflexivity.
      + intros pre o post H. destruct pre; discriminate.
    - destruct (IH (uemit w (TData self p v))) as [H1 H2]. split.
      + intros HB. inversion HB as [| q l' HB1 HB2]; subst q l'. cbn [ObsThrowModel.uloop]. rewrite HF, HB1.
        cbn [ObsThrowModel.tthen]. rewrite (H1 HB2). cbn. rewrite <- app_assoc. reflexivity.
      + intros pre o post E HB HO. cbn [ObsThrowModel.uloop]. rewrite HF. destruct pre as [| q pre].
        * injection E as -> ->. destruct (bad o v); [| contradiction]. reflexivity.
        * injection E as -> ->. inversion HB as [| q' l' HB1 HB2]; subst q' l'. rewrite HB1. cbn [ObsThrowModel.tthen].
          rewrite (H2 pre o post eq_refl HB2 HO). cbn. rewrite <- app_assoc. reflexivity.
  Qed.

  Lemma uplain_disc_round bad f o w : on_disc = plain_disc bad -> uround_disc self on_disc f o w =
    match bad o with None => TOk (uemit w (TDisc self o)) (TRet ok) | Some x => TOk (uemit (uemit w (TDisc self o)) (TDiscThrew o)) (TExc x) end.
  Proof.
    intros HD. unfold uround_disc. rewrite HD. unfold plain_disc. destruct (bad o); cbn; [reflexivity |]. rewrite Nat.eqb_refl. reflexivity.
  Qed.

  Lemma uplain_clear bad f w : on_disc = plain_disc bad -> uinv V w -> u_locked w = false ->
    (Forall (fun o => bad o = None) (tmembers (u_log w)) -> exists w', run1 (S f) w Clear = TOk w' (TRet ok) /\
       u_log w' = u_log w ++ map (TDisc self) (tmembers (u_log w)) ++ [TLeft Clear (TRet ok)]) /\
    (forall pre o post x, tmembers (u_log w) = pre ++ o :: post -> Forall (fun o => bad o = None) pre -> bad o = Some x ->
       exists w', run1 (S f) w Clear = TOk w' (TExc x) /\
       u_log w' = u_log w ++ map (TDisc self) (pre ++ [o]) ++ [TDiscThrew o; TLeft Clear (TExc x)]).
  Proof.
    intros HD [HO HN] HK. cbn [ObsThrowModel.urun].
    destruct (uacquire_cases V locking w) as [E | (w0 & -> & HO0 & HL0 & _ & HT & HF)].
    { unfold uacquire in E. rewrite HK in E. destruct locking; discriminate. }
    cbn [ObsThrowModel.tlift ObsThrowModel.uinner]. rewrite HO0, HO, <- HL0.
    destruct (uplain_loop bad (TDisc self) TDiscThrew _ (fun w o => uplain_disc_round bad (run1 f) o w HD) (tmembers (u_log w0)) w0) as [H1 H2].
    split.
    - intros HB. rewrite (H1 HB). cbn [ObsThrowModel.tthen]. eexists. split; [reflexivity |].
      unfold urelease. destruct locking; cbn; rewrite <- app_assoc; reflexivity.
    - intros pre o post x E HB HX. rewrite (H2 _ _ _ _ E HB HX). cbn [ObsThrowModel.tthen]. eexists. split; [reflexivity |].
      unfold urelease. destruct locking; cbn; rewrite <- !app_assoc; reflexivity.
  Qed.
  Lemma uplain_notify bad f w v : on_data = plain_data bad -> uinv V w -> u_locked w = false ->
    (Forall (fun o => bad o v = None) (tmembers (u_log w)) -> exists w', run1 (S f) w (Notify v) = TOk w' (TRet ok) /\
       u_log w' = u_log w ++ map (fun o => TData self o v) (tmembers (u_log w)) ++ [TLeft (Notify v) (TRet ok)]) /\
    (forall pre o post, tmembers (u_log w) = pre ++ o :: post -> Forall (fun o => bad o v = None) pre -> bad o v <> None ->
       run1 (S f) w (Notify v) = TEnd (u_log w ++ map (fun o => TData self o v) (pre ++ [o]) ++ [TDataThrew o])).
  Proof.
    intros HD [HO HN] HK. cbn [ObsThrowModel.urun].
    destruct (uacquire_cases V locking w) as [E | (w0 & -> & HO0 & HL0 & _ & HT & HF)].
    { unfold uacquire in E. rewrite HK in E. destruct locking; discriminate. }
    cbn [ObsThrowModel.tlift ObsThrowModel.uinner]. rewrite HO0, HO, <- HL0.
    destruct (uplain_data_loop bad (run1 f) v HD (tmembers (u_log w0)) w0) as [H1 H2]. split.
    - intros HB. rewrite (H1 HB). eexists. split; [reflexivity |].
      unfold urelease. destruct locking; cbn; rewrite <- app_assoc; reflexivity.
    - intros pre o post E HB HX. rewrite (H2 _ _ _ E HB HX). reflexivity.
  Qed.

  (** After a clear that threw, everything is as before. *)
  Lemma uplain_clears bad f pre o post x : on_disc = plain_disc bad -> Forall (fun o => bad o = None) pre -> bad o = Some x ->
    forall n w, uinv V w -> u_locked w = false -> tmembers (u_log w) = pre ++ o :: post -> exists w',
    urun_all self on_data on_disc locking (S f) w (repeat Clear n) = TOk w' (TRet ok) /\
    u_log w' = u_log w ++ concat (repeat (map (TDisc self) (pre ++ [o]) ++ [TDiscThrew o; TLeft Clear (TExc x)]) n) /\
    tmembers (u_log w') = pre ++ o :: post.
  Proof.
    intros HD HB HX. induction n as [| n IH]; intros w HI HK HM.
    - exists w. cbn. rewrite app_nil_r. auto.
    - destruct (uplain_clear bad f w HD HI HK) as [_ H]. destruct (H _ _ _ _ HM HB HX) as (w1 & H1 & HL1).
      pose proof (urun_safe V self on_data on_disc locking (S f) w Clear HI) as HS. rewrite H1 in HS. destruct HS as (HI1 & HK1 & _).
      assert (HM1 : tmembers (u_log w1) = pre ++ o :: post).
      { rewrite HL1, <- HM. unfold tmembers. rewrite !fold_left_app. cbn. generalize (fold_left tmember_step (u_log w) []).
        clear. induction (pre ++ [o]) as [| a l IH]; intros m; cbn; auto. }
      destruct (IH w1 HI1 ltac:(congruence) HM1) as (w' & HR & HL & HM').
      exists w'. cbn [repeat ObsThrowModel.urun_all]. rewrite H1. split; [exact HR |]. split; [| exact HM'].
      cbn [concat]. rewrite HL, HL1, <- !app_assoc. reflexivity.
  Qed.

  (** ** with the mutex: callbacks cannot use the observable *)
  Hypothesis HLK : locking = true.
  Lemma locked_body g : forall b w w' r, u_locked w = true -> tbody_run (run1 g) b w = TOk w' r -> w' = w.
  Proof.
    intros b w w' r HK. destruct b as [| x | c k]; cbn; intros H; try congruence.
    assert (E : run1 g w c = TUB \/ run1 g w c = TFuel).
    { destruct g as [| g]; [right; reflexivity | left]. cbn [ObsThrowModel.urun]. unfold uacquire. rewrite HLK, HK. reflexivity. }
    destruct E as [E | E]; rewrite E in H; discriminate.
  Qed.
  Lemma locked_disc_loop g : forall l w w' r, u_locked w = true -> uloop (uround_disc self on_disc (run1 g)) l w = TOk w' r ->
    u_obs w' = u_obs w /\
    ((r = TRet ok /\ u_log w' = u_log w ++ map (TDisc self) l) \/
     exists pre o post x, r = TExc x /\ l = pre ++ o :: post /\ u_log w' = u_log w ++ map (TDisc self) (pre ++ [o]) ++ [TDiscThrew o]).
  Proof.
    induction l as [| p l IH]; intros w w' r HK H; cbn in H.
    - injection H as <- <-. split; auto. left. rewrite app_nil_r. auto.
    - apply tthen_ok in H as [(w1 & e & H1 & H) | (w1 & y & H1 & H)].
      + unfold uround_disc in H1. apply tthen_ok in H1 as [(w2 & e2 & H1 & H2) | (w2 & z & H1 & H2)]; [| discriminate].
        apply locked_body in H1; [| exact HK]. subst w2. cbn in H2. rewrite Nat.eqb_refl in H2. injection H2 as <- <-.
        destruct (IH (uemit w (TDisc self p)) _ _ HK H) as [HO [(-> & HL) | (pre & o & post & x & -> & -> & HL)]]; split; auto; cbn in HL; rewrite <- app_assoc in HL.
        * left. auto.
        * right. exists (p :: pre), o, post, x. auto.
      + injection H as -> <-. unfold uround_disc in H1. apply tthen_ok in H1 as [(w2 & e2 & H1 & H2) | (w2 & z & H1 & H2)].
        * destruct (u_ver w2 =? u_ver w)%nat; discriminate.
        * apply locked_body in H1; [| exact HK]. subst w2. injection H2 as <- <-. split; auto. right. exists [], p, l, z. cbn.
          rewrite <- app_assoc. auto.
  Qed.

  Lemma locked_clear f w w' r : uinv V w -> run1 f w Clear = TOk w' r ->
    (r = TRet ok /\ u_log w' = u_log w ++ map (TDisc self) (tmembers (u_log w)) ++ [TLeft Clear (TRet ok)]) \/
    exists pre o post x, r = TExc x /\ tmembers (u_log w) = pre ++ o :: post /\
      u_log w' = u_log w ++ map (TDisc self) (pre ++ [o]) ++ [TDiscThrew o; TLeft Clear (TExc x)].
  Proof.
    intros [HO HN] H. apply urun_parts in H as (g & w0 & w1 & -> & HO0 & HL0 & HK0 & H & HO1 & HL1).
    rewrite HLK in HK0. cbn [ObsThrowModel.uinner] in H. rewrite HL1. rewrite HO0, HO in H.
    apply tthen_ok in H as [(w2 & e2 & H1 & H2) | (w2 & z & H1 & H2)];
      destruct (locked_disc_loop _ _ _ _ _ HK0 H1) as [HO2 [(ER & HL2) | (pre & o & post & x & ER & EM & HL2)]]; try discriminate.
    - injection H2 as <- <-. left. cbn. rewrite HL2, HL0, <- app_assoc. auto.
    - injection H2 as <- <-. right. injection ER as <-. exists pre, o, post, z. rewrite HL2, HL0, <- !app_assoc. auto.
  Qed.
End Dynamic.
