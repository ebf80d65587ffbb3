(** Routing between several managers; copies; when calls are defined. *)
From Verif Require Export MedNetProofs.
From Verif Require Import ObserverProofs1 MediatorProofs.

Lemma kcalls_all b : kcalls (fun _ => True) b.
Proof. induction b as [|c k IH]; constructor; [exact Logic.I|exact IH]. Qed.

(** ** segments *)
Lemma finished_deep l : finished l -> forall d r, kdirect (S d) (l ++ r) = kdirect (S d) r.
Proof.
  induction 1 as [|g id bs l H IH|a D bs l H IH|c l l' H IH H' IH']; intros d r; cbn [app kdirect Nat.eqb]; [reflexivity|apply IH|apply IH|].
  rewrite <- app_assoc. cbn [app]. rewrite IH. cbn [kdirect pred]. apply IH'.
Qed.
Definition kclosed (s : list kev) : Prop := forall d r, kdirect d (s ++ r) = kdirect d r.
Lemma kclosed_nil : kclosed [].
Proof. intros d r. reflexivity. Qed.
Lemma kclosed_app s1 s2 : kclosed s1 -> kclosed s2 -> kclosed (s1 ++ s2).
Proof. intros H1 H2 d r. rewrite <- app_assoc, H1, H2. reflexivity. Qed.
Lemma kclosed_call c l : finished l -> kclosed (KBegin c :: l ++ [KEnd c]).
Proof. intros F d r. cbn [app kdirect]. rewrite <- app_assoc, (finished_deep l F). reflexivity. Qed.

Section Grow.
  Variable hash : string -> Z.
  Variable enc : mty -> Z -> list Z.
  Variable handler : list kev -> addr -> mty -> list Z -> kbody.
  Variable hook : list kev -> addr -> Z -> list Z -> kbody.
  Variable leaves : list kev -> addr -> Z -> list Z -> list Z.
  Notation krun := (krun hash enc handler hook leaves).

  Definition grows (w : kworld) (x : kres kworld) : Prop :=
    match x with KOk w' => exists evs, k_log w' = k_log w ++ evs /\ finished evs | _ => True end.
  Lemma grows_refl w w' : k_log w' = k_log w -> grows w (KOk w').
  Proof. intros E. exists []. rewrite app_nil_r. split; [exact E|constructor]. Qed.
  Lemma grows_pre w w1 x : (exists evs, k_log w1 = k_log w ++ evs /\ finished evs) -> grows w1 x -> grows w x.
  Proof.
    intros (e1 & H & F) HS. destruct x as [w'| |]; cbn in *; [|exact HS..].
    destruct HS as (e2 & H2 & F2). exists (e1 ++ e2). rewrite H2, H, app_assoc. split; [reflexivity|apply finished_app; assumption].
  Qed.
  Lemma grows_bind w x f : grows w x -> (forall w1, grows w1 (f w1)) -> grows w (kbind x f).
  Proof.
    intros HS HF. destruct x as [w1| |]; cbn [kbind]; [|exact Logic.I..]. eapply grows_pre; [exact HS|apply HF].
  Qed.
  Lemma grows_via {A} w (x : kres A) f : (forall a, grows w (f a)) -> grows w (kbind x f).
  Proof. intros HF. destruct x as [a| |]; cbn [kbind]; [apply HF|exact Logic.I..]. Qed.

  Section Step.
    Variable step : kworld -> kcall -> kres kworld.
    Hypothesis step_shape : forall w c w', step w c = KOk w' ->
      exists evs, k_log w' = k_log w ++ KBegin c :: evs ++ [KEnd c] /\ finished evs.
    Lemma step_grows w c : grows w (step w c).
    Proof.
      destruct (step w c) as [w'| |] eqn:E; [|exact Logic.I..]. destruct (step_shape w c w' E) as (evs & H & F).
      exists (KBegin c :: evs ++ [KEnd c]). split; [exact H|apply finished_call, F].
    Qed.
    (** What a body does is not seen from outside. *)
    Lemma body_closed b : forall w w', kbody_run step b w = KOk w' ->
      exists evs, k_log w' = k_log w ++ evs /\ finished evs /\ kclosed evs.
    Proof.
      induction b as [|c k IH]; intros w w' H; cbn [kbody_run] in H.
      - inversion H; subst. exists []. rewrite app_nil_r. split; [reflexivity|]. split; [constructor|apply kclosed_nil].
      - destruct (step w c) as [w1| |] eqn:E; cbn [kbind] in H; try discriminate.
        destruct (step_shape w c w1 E) as (e1 & H1 & F1). destruct (IH _ _ _ H) as (e2 & H2 & F2 & C2).
        exists ((KBegin c :: e1 ++ [KEnd c]) ++ e2). rewrite H2, H1, <- app_assoc. split; [reflexivity|]. split.
        + apply finished_app; [apply finished_call, F1|exact F2].
        + apply kclosed_app; [apply kclosed_call, F1|exact C2].
    Qed.
    Lemma body_grows b w : grows w (kbody_run step b w).
    Proof.
      destruct (kbody_run step b w) as [w'| |] eqn:E; [|exact Logic.I..].
      destruct (body_closed b w w' E) as (evs & H & F & _). exists evs. tauto.
    Qed.
    Lemma convert_grows a D bs w : grows w (kconvert handler step a D bs w).
    Proof.
      unfold kconvert. destruct (negb _); [apply grows_refl; reflexivity|]. apply grows_via. intros got.
      eapply grows_pre; [|apply body_grows]. exists [KRecv a D got]. split; [reflexivity|repeat constructor].
    Qed.
    Lemma receive_grows a id bs recvs : forall w, grows w (kreceive hash handler step a recvs id bs w).
    Proof.
      induction recvs as [|D recvs IH]; intros w; cbn [kreceive]; [apply grows_refl; reflexivity|].
      destruct (id =? hash (ty_name D)); [apply convert_grows|apply IH].
    Qed.
    Lemma loop_grows g snd bs k : forall i w, grows w (kloop hash handler step g snd bs k i w).
    Proof.
      induction k as [|k IH]; intros i w; cbn [kloop]; [exact Logic.I|]. apply grows_via. intros [tab cnt].
      destruct (i <? cnt)%nat; [|apply grows_refl; reflexivity].
      apply grows_via. intros p. apply grows_via. intros a. apply grows_via. intros [d g'].
      apply grows_via. intros id. destruct (kid hash d =? id); [apply IH|].
      apply grows_bind; [apply receive_grows|]. intros w1. apply IH.
    Qed.
    Lemma kdo_grows k w c : grows w (kdo hash enc handler hook leaves step k w c).
    Proof.
      destruct c as [g n|g h|g h|g|a d g|a c|a|a g|a v|g D v]; cbn [kdo].
      - apply grows_via. intros _. apply grows_refl. reflexivity.
      - apply grows_via. intros _. apply grows_via. intros t. apply grows_refl. reflexivity.
      - apply grows_via. intros [old n]. apply grows_via. intros [tab cnt].
        destruct (_ =? _)%nat; [apply grows_refl; reflexivity|exact Logic.I].
      - apply grows_via. intros _. apply grows_refl. reflexivity.
      - apply grows_via. intros _. apply grows_via. intros [tab cnt]. apply grows_via. intros t. apply grows_refl. reflexivity.
      - apply grows_via. intros _. apply grows_via. intros t. apply grows_refl. reflexivity.
      - apply grows_via. intros [d g]. apply grows_via. intros [tab cnt]. apply grows_via. intros t. apply grows_refl. reflexivity.
      - apply grows_via. intros [d g']. apply grows_refl. reflexivity.
      - apply grows_via. intros [d g]. apply grows_via. intros _. cbv zeta. apply grows_bind.
        + eapply grows_pre; [|apply body_grows]. eexists. split; [reflexivity|repeat constructor].
        + intros w1. destruct (_ =? _)%nat; [apply loop_grows|exact Logic.I].
      - apply loop_grows.
    Qed.
  End Step.

  Lemma krun_shape fuel : forall w c w', krun fuel w c = KOk w' ->
    exists evs, k_log w' = k_log w ++ KBegin c :: evs ++ [KEnd c] /\ finished evs.
  Proof.
    induction fuel as [|f IH]; intros w c w' H; [discriminate|]. cbn [MedNetModel.krun] in H.
    pose proof (kdo_grows (krun f) IH f (kemit w (KBegin c)) c) as G.
    destruct (kdo hash enc handler hook leaves (krun f) f (kemit w (KBegin c)) c) as [w1| |]; cbn [kbind] in H; try discriminate.
    inversion H; subst. destruct G as (evs & E & F). exists evs. split; [|exact F].
    cbn [kemit k_log] in *. rewrite E, <- !app_assoc. reflexivity.
  Qed.
End Grow.

(** ** routing: handlers only send *)
Section Route.
  Variable hash : string -> Z.
  Variable enc : mty -> Z -> list Z.
  Variable handler : list kev -> addr -> mty -> list Z -> kbody.
  Variable hook : list kev -> addr -> Z -> list Z -> kbody.
  Variable leaves : list kev -> addr -> Z -> list Z -> list Z.
  Hypothesis leaves_len : forall log g id bs, length (leaves log g id bs) = length bs.
  Hypothesis handler_sends : forall log a D bs, kcalls sending (handler log a D bs).
  Hypothesis hook_sends : forall log g id bs, kcalls sending (hook log g id bs).
  Notation krun := (krun hash enc handler hook leaves).
  Variable b : book.
  Definition still (l : list kev) : Prop := booked l = b.
  Notation sok := (kok still).

  Lemma still_quiet l e : still l -> kquiet e -> still (l ++ [e]).
  Proof. unfold still. intros H Q. rewrite booked_quiet; assumption. Qed.
  Lemma still_begin l c : still l -> still (l ++ [KBegin c]).
  Proof. intros H. apply still_quiet; [exact H|exact Logic.I]. Qed.
  Lemma still_hook l g id bs : still l -> still (l ++ [KHook g id bs]).
  Proof. intros H. apply still_quiet; [exact H|exact Logic.I]. Qed.
  Lemma still_recv l (g : addr) a (d : mdesc) (m : addr) D bs : still l -> In a (listed (booked l) g) -> mod_at (booked l) a = Some (d, m) ->
    In D (md_recvs d) -> length bs = ty_size D -> still (l ++ [KRecv a D bs]).
  Proof. intros H _ _ _ _. apply still_quiet; [exact H|exact Logic.I]. Qed.
  Lemma still_end l c : still l -> sending c -> ~ fault (booked l) (booked l) c -> ~ sending c -> still (l ++ [KEnd c]).
  Proof. intros _ A _ B. contradiction. Qed.
  Lemma still_send l c : still l -> sending c -> still (l ++ [KEnd c]).
  Proof. unfold still. intros H S. rewrite booked_snoc. destruct c; try destruct S; exact H. Qed.

  Lemma srun_safe fuel w c : sok w -> sending c -> ksafe still w (krun fuel w c).
  Proof.
    apply krun_safe; try assumption;
      [exact still_begin|exact still_hook|exact still_recv|exact still_end|exact still_send].
  Qed.
  Lemma sbody_safe fuel bd w : kcalls sending bd -> sok w -> ksafe still w (kbody_run (krun fuel) bd w).
  Proof. intros HB K. apply (kbody_safe sending still (krun fuel)); [intros; apply srun_safe; assumption|exact HB|exact K]. Qed.

  Variable D : mty.
  Hypothesis apart : told_apart hash b D.

  Lemma route_receive fuel a d m bs recvs : incl recvs (md_recvs d) -> mod_at b a = Some (d, m) -> length bs = ty_size D ->
    forall w w', sok w -> kreceive hash handler (krun fuel) a recvs (hash (ty_name D)) bs w = KOk w' ->
    sok w' /\ exists evs, k_log w' = k_log w ++ evs /\ finished evs /\
      forall r, kdirect 0 (evs ++ r) = (if in_dec mty_eq_dec D recvs then [KRecv a D bs] else []) ++ kdirect 0 r.
  Proof.
    intros HI HM HL. induction recvs as [|E recvs IH]; intros w w' K H; cbn [kreceive] in H.
    - inversion H; subst. split; [exact K|]. exists []. rewrite app_nil_r. split; [reflexivity|]. split; [constructor|]. reflexivity.
    - destruct (Z.eqb_spec (hash (ty_name D)) (hash (ty_name E))) as [EH|NH].
      + assert (E = D).
        { apply (apart a d m E HM); [right; apply HI; left; reflexivity|symmetry; exact EH]. }
        subst E. unfold kconvert in H. rewrite HL, Nat.eqb_refl in H. cbn [negb] in H.
        rewrite <- HL, read_bytes_all in H. cbn [klift kbind] in H.
        assert (K1 : sok (kemit w (KRecv a D bs))).
        { destruct K as [I S]. split; [apply kinv_quiet; [exact I|exact Logic.I]|apply still_quiet; [exact S|exact Logic.I]]. }
        pose proof (sbody_safe fuel _ _ (handler_sends (k_log w) a D bs) K1) as SB. rewrite H in SB.
        destruct SB as [K' _]. split; [exact K'|].
        destruct (body_closed (krun fuel) (krun_shape hash enc handler hook leaves fuel) _ _ _ H) as (evs & EL & F & C).
        exists (KRecv a D bs :: evs). cbn [kemit k_log] in EL. rewrite EL, <- app_assoc. split; [reflexivity|].
        split; [constructor; exact F|]. intros r. cbn [app kdirect Nat.eqb]. rewrite C.
        destruct (in_dec mty_eq_dec D (D :: recvs)) as [_|N]; [reflexivity|exfalso; apply N; left; reflexivity].
      + assert (ND : E <> D) by (intros ->; apply NH; reflexivity).
        destruct (IH ltac:(intros x Hx; apply HI; right; exact Hx) w w' K H) as (K' & evs & EL & F & HD).
        split; [exact K'|]. exists evs. split; [exact EL|]. split; [exact F|]. intros r. rewrite HD. f_equal.
        destruct (in_dec mty_eq_dec D recvs) as [Y|N], (in_dec mty_eq_dec D (E :: recvs)) as [Y'|N']; try reflexivity.
        * exfalso. apply N'. right. exact Y.
        * exfalso. destruct Y' as [Y'|Y']; [congruence|contradiction].
  Qed.

  (** The dispatch of a message of type D. *)
  Variable g : addr.
  Variable snd : addr + mty.
  Hypothesis snd_D : match snd with
                     | inl s => exists d m, mod_at b s = Some (d, m) /\ md_sends d = D
                     | inr D' => D' = D end.

  Lemma ident_D w : sok w -> kident hash snd w = KOk (hash (ty_name D)).
  Proof.
    intros [I S]. destruct snd as [s|D']; cbn [kident].
    - destruct snd_D as (d & m & HM & HD). rewrite (ki_mod w I), S, HM. cbn [kneed kbind]. unfold kid. rewrite HD. reflexivity.
    - rewrite snd_D. reflexivity.
  Qed.

  Lemma route_loop fuel bs : length bs = ty_size D -> forall k i w w', sok w ->
    kloop hash handler (krun fuel) g snd bs k i w = KOk w' ->
    sok w' /\ exists evs, k_log w' = k_log w ++ evs /\ finished evs /\
      forall r, kdirect 0 (evs ++ r) = map (fun x => KRecv x D bs) (filter (hears b D) (skipn i (listed b g))) ++ kdirect 0 r.
  Proof.
    intros HL. induction k as [|k IH]; intros i w w' K H; cbn [kloop] in H; [discriminate|].
    pose proof K as [I S].
    destruct (k_mgr w g) as [[tab cnt]|] eqn:EG; cbn [kneed kbind] in H; [|discriminate].
    destruct (mgr_some w g tab cnt I EG) as (n & l & r0 & EM & LN & EC & ET). subst tab cnt.
    rewrite S in EM. unfold listed. rewrite EM.
    destruct (Nat.ltb_spec i (length l)) as [L|L].
    2: { inversion H; subst. split; [exact K|]. exists []. rewrite app_nil_r. split; [reflexivity|]. split; [constructor|].
         rewrite skipn_all2 by lia. reflexivity. }
    destruct (tab_slot l r0 i L) as (a & HS & HA). rewrite HS in H. cbn [klift kbind kneed] in H.
    destruct (k_mod w a) as [[d m]|] eqn:EA; cbn [kneed kbind] in H; [|discriminate].
    assert (HM : mod_at b a = Some (d, m)) by (rewrite <- S, <- (ki_mod w I); exact EA).
    rewrite (ident_D w K) in H. cbn [kbind] in H.
    rewrite (skipn_nth l i a HA). cbn [filter].
    assert (HH : hears b D a = wants (fun _ => d) D a) by (unfold hears; rewrite HM; reflexivity).
    rewrite HH. unfold wants.
    destruct (Z.eqb_spec (kid hash d) (hash (ty_name D))) as [EI|NI].
    - assert (ES : md_sends d = D).
      { apply (apart a d m (md_sends d) HM); [left; reflexivity|exact EI]. }
      destruct (mty_eq_dec (md_sends d) D) as [_|N]; [|contradiction].
      destruct (IH (Datatypes.S i) w w' K H) as (K' & evs & EL & F & HD). unfold listed in HD. rewrite EM in HD.
      split; [exact K'|]. exists evs. split; [exact EL|]. split; [exact F|]. intros r. rewrite HD.
      destruct (in_dec mty_eq_dec D (md_recvs d)); reflexivity.
    - destruct (mty_eq_dec (md_sends d) D) as [ES|_]; [exfalso; apply NI; unfold kid; rewrite ES; reflexivity|].
      destruct (kreceive hash handler (krun fuel) a (md_recvs d) (hash (ty_name D)) bs w) as [w1| |] eqn:ER; cbn [kbind] in H; try discriminate.
      destruct (route_receive fuel a d m bs (md_recvs d) (incl_refl _) HM HL w w1 K ER) as (K1 & e1 & EL1 & F1 & HD1).
      destruct (IH (Datatypes.S i) w1 w' K1 H) as (K' & e2 & EL2 & F2 & HD2). unfold listed in HD2. rewrite EM in HD2.
      split; [exact K'|]. exists (e1 ++ e2). rewrite EL2, EL1, <- app_assoc. split; [reflexivity|].
      split; [apply finished_app; assumption|]. intros r. rewrite <- app_assoc, HD1, HD2.
      destruct (in_dec mty_eq_dec D (md_recvs d)); reflexivity.
  Qed.
End Route.

Section RouteCalls.
  Variable hash : string -> Z.
  Variable enc : mty -> Z -> list Z.
  Hypothesis enc_len : forall D v, length (enc D v) = ty_size D.
  Variable handler : list kev -> addr -> mty -> list Z -> kbody.
  Variable hook : list kev -> addr -> Z -> list Z -> kbody.
  Variable leaves : list kev -> addr -> Z -> list Z -> list Z.
  Hypothesis leaves_len : forall log g id bs, length (leaves log g id bs) = length bs.
  Hypothesis handler_sends : forall log a D bs, kcalls sending (handler log a D bs).
  Hypothesis hook_sends : forall log g id bs, kcalls sending (hook log g id bs).
  Notation krun := (krun hash enc handler hook leaves).

  Lemma route_send fuel w a v w' d g : kinv w -> mod_at (booked (k_log w)) a = Some (d, g) ->
    told_apart hash (booked (k_log w)) (md_sends d) -> krun fuel w (KSend a v) = KOk w' ->
    booked (k_log w') = booked (k_log w) /\
    exists first rest,
      k_log w' = k_log w ++ KBegin (KSend a v) :: (first ++ rest) ++ [KEnd (KSend a v)] /\ finished first /\ finished rest /\
      kdirect 0 first = [KHook g (hash (ty_name (md_sends d))) (enc (md_sends d) v)] /\
      kdirect 0 rest = map (fun x => KRecv x (md_sends d)
                              (leaves (k_log w ++ KBegin (KSend a v) :: first) g (hash (ty_name (md_sends d))) (enc (md_sends d) v)))
                           (filter (hears (booked (k_log w)) (md_sends d)) (listed (booked (k_log w)) g)).
  Proof.
    intros I HM AP H. set (b := booked (k_log w)) in *. set (D := md_sends d) in *.
    destruct fuel as [|f]; [discriminate|]. cbn [MedNetModel.krun] in H.
    set (w0 := kemit w (KBegin (KSend a v))) in H.
    assert (K0 : kok (still b) w0).
    { split; [apply kinv_quiet; [exact I|exact Logic.I]|]. cbn [w0 kemit k_log]. apply still_quiet; [reflexivity|exact Logic.I]. }
    cbn [kdo] in H. pose proof (proj1 K0) as I0. pose proof (proj2 K0) as S0.
    rewrite (ki_mod w0 I0), S0, HM in H. cbn [kneed kbind] in H.
    destruct (k_mgr w0 g) as [t|] eqn:EG; cbn [kneed kbind] in H; [|discriminate].
    change (enc (md_sends d) v) with (enc D v) in H. change (kid hash d) with (hash (ty_name D)) in H.
    set (id := hash (ty_name D)) in *. set (bs := enc D v) in *.
    set (w00 := kemit w0 (KHook g id bs)) in H.
    destruct (kbody_run (krun f) (hook (k_log w0) g id bs) w00) as [w1| |] eqn:EB; cbn [kbind] in H; try discriminate.
    rewrite leaves_len, Nat.eqb_refl in H.
    destruct (kloop hash handler (krun f) g (inl a) (leaves (k_log w1) g id bs) f 0 w1) as [w2| |] eqn:EL; cbn [kbind] in H; try discriminate.
    inversion H; subst w'. clear H.
    assert (K00 : kok (still b) w00).
    { split; [apply kinv_quiet; [exact I0|exact Logic.I]|apply still_quiet; [exact S0|exact Logic.I]]. }
    pose proof (sbody_safe hash enc handler hook leaves leaves_len handler_sends hook_sends b f _ _ (hook_sends (k_log w0) g id bs) K00) as SB.
    rewrite EB in SB. destruct SB as [K1 _].
    destruct (body_closed (krun f) (krun_shape hash enc handler hook leaves f) _ _ _ EB) as (e1 & L1 & F1 & C1).
    assert (LB : length (leaves (k_log w1) g id bs) = ty_size D) by (rewrite leaves_len; apply enc_len).
    destruct (route_loop hash enc handler hook leaves leaves_len handler_sends hook_sends b D AP g (inl a)
                (ex_intro _ d (ex_intro _ g (conj HM eq_refl))) f _ LB f 0%nat w1 w2 K1 EL) as (K2 & e2 & L2 & F2 & HD2).
    split.
    { cbn [kemit k_log]. rewrite booked_snoc. cbn [book_step]. exact (proj2 K2). }
    exists (KHook g id bs :: e1), e2. cbn [kemit k_log].
    assert (LW : k_log w1 = k_log w ++ KBegin (KSend a v) :: KHook g id bs :: e1).
    { rewrite L1. cbn [w00 w0 kemit k_log]. rewrite <- !app_assoc. reflexivity. }
    split; [|split; [|split; [|split]]].
    - rewrite L2, LW, <- !app_assoc. cbn [app]. reflexivity.
    - constructor. exact F1.
    - exact F2.
    - cbn [kdirect Nat.eqb]. rewrite <- (app_nil_r e1), C1. reflexivity.
    - rewrite <- (app_nil_r e2), HD2. cbn [kdirect skipn]. rewrite app_nil_r, LW. reflexivity.
  Qed.

  Lemma route_mgr fuel w g D v w' : kinv w ->
    told_apart hash (booked (k_log w)) D -> krun fuel w (KMgrSend g D v) = KOk w' ->
    booked (k_log w') = booked (k_log w) /\
    exists evs,
      k_log w' = k_log w ++ KBegin (KMgrSend g D v) :: evs ++ [KEnd (KMgrSend g D v)] /\ finished evs /\
      kdirect 0 evs = map (fun x => KRecv x D (enc D v)) (filter (hears (booked (k_log w)) D) (listed (booked (k_log w)) g)).
  Proof.
    intros I AP H. set (b := booked (k_log w)) in *.
    destruct fuel as [|f]; [discriminate|]. cbn [MedNetModel.krun kdo] in H.
    set (w0 := kemit w (KBegin (KMgrSend g D v))) in H.
    assert (K0 : kok (still b) w0).
    { split; [apply kinv_quiet; [exact I|exact Logic.I]|]. cbn [w0 kemit k_log]. apply still_quiet; [reflexivity|exact Logic.I]. }
    destruct (kloop hash handler (krun f) g (inr D) (enc D v) f 0 w0) as [w2| |] eqn:EL; cbn [kbind] in H; try discriminate.
    inversion H; subst w'. clear H.
    destruct (route_loop hash enc handler hook leaves leaves_len handler_sends hook_sends b D AP g (inr D)
                eq_refl f _ (enc_len D v) f 0%nat w0 w2 K0 EL) as (K2 & e2 & L2 & F2 & HD2).
    split; [cbn [kemit k_log]; rewrite booked_snoc; exact (proj2 K2)|].
    exists e2. cbn [kemit k_log]. split; [rewrite L2; cbn [w0 kemit k_log]; rewrite <- !app_assoc; reflexivity|].
    split; [exact F2|]. rewrite <- (app_nil_r e2), HD2. cbn [kdirect skipn]. apply app_nil_r.
  Qed.
End RouteCalls.

(** ** handlers that return at once *)
Section Quiet.
  Variable hash : string -> Z.
  Variable enc : mty -> Z -> list Z.
  Variable handler : list kev -> addr -> mty -> list Z -> kbody.
  Variable hook : list kev -> addr -> Z -> list Z -> kbody.
  Variable leaves : list kev -> addr -> Z -> list Z -> list Z.
  Hypothesis leaves_len : forall log g id bs, length (leaves log g id bs) = length bs.
  Hypothesis handler_quiet : forall log a D bs, handler log a D bs = KReturn.
  Hypothesis hook_quiet : forall log g id bs, hook log g id bs = KReturn.
  Notation krun := (krun hash enc handler hook leaves).

  Definition same_objects (w w' : kworld) : Prop := k_mgr w' = k_mgr w /\ k_mod w' = k_mod w.

  Lemma quiet_receive step a id bs recvs : forall w,
    exists w', kreceive hash handler step a recvs id bs w = KOk w' /\ same_objects w w'.
  Proof.
    induction recvs as [|D recvs IH]; intros w; cbn [kreceive]; [exists w; split; [reflexivity|split; reflexivity]|].
    destruct (id =? hash (ty_name D)); [|apply IH]. unfold kconvert.
    destruct (Nat.eqb_spec (ty_size D) (length bs)) as [E|N]; cbn [negb]; [|exists w; split; [reflexivity|split; reflexivity]].
    rewrite E, read_bytes_all. cbn [klift kbind]. rewrite handler_quiet. cbn [kbody_run].
    eexists. split; [reflexivity|]. split; reflexivity.
  Qed.

  Lemma quiet_loop step g snd bs n l r : forall q p k w, l = p ++ q -> (length q < k)%nat ->
    k_mgr w g = Some (map Some l ++ r, length l) -> length (map Some l ++ r) = n ->
    match snd with inl s => k_mod w s <> None | inr _ => True end ->
    ((forall x, In x q -> k_mod w x <> None) -> exists w', kloop hash handler step g snd bs k (length p) w = KOk w') /\
    ((exists x, In x q /\ k_mod w x = None) -> exists log, kloop hash handler step g snd bs k (length p) w = KUB log).
  Proof.
    induction q as [|a q IH]; intros p k w EL LK EG LN HS; (destruct k as [|k]; [cbn in LK; lia|]); cbn [kloop];
      rewrite EG; cbn [kneed kbind].
    - rewrite app_nil_r in EL. subst p. rewrite Nat.ltb_irrefl. split; [intros _; eexists; reflexivity|intros (x & [] & _)].
    - assert (LT : (length p < length l)%nat) by (rewrite EL, app_length; cbn; lia).
      assert (ES : slot (map Some l ++ r) (length p) = Ok (Some a)).
      { destruct (tab_slot l r (length p) LT) as (a' & H1 & H2). rewrite EL, nth_error_app2, Nat.sub_diag in H2 by lia.
        inversion H2; subst a'. exact H1. }
      rewrite (proj2 (Nat.ltb_lt _ _) LT), ES. cbn [klift kbind kneed].
      destruct (k_mod w a) as [[d m]|] eqn:EA; cbn [kneed kbind].
      2: { split; [intros H; exfalso; apply (H a (or_introl eq_refl)), EA|intros _; eexists; reflexivity]. }
      assert (HI : exists id, kident hash snd w = KOk id).
      { destruct snd as [s|D']; cbn [kident]; [|eexists; reflexivity].
        destruct (k_mod w s) as [[ds gs]|]; [eexists; reflexivity|exfalso; apply HS; reflexivity]. }
      destruct HI as [id ->]. cbn [kbind].
      assert (EL' : l = (p ++ [a]) ++ q) by (rewrite <- app_assoc; exact EL).
      assert (LP : Datatypes.S (length p) = length (p ++ [a])) by (rewrite app_length; cbn; lia).
      assert (TAIL : forall w1, same_objects w w1 ->
        ((forall x, In x (a :: q) -> k_mod w x <> None) -> exists w', kloop hash handler step g snd bs k (Datatypes.S (length p)) w1 = KOk w') /\
        ((exists x, In x (a :: q) /\ k_mod w x = None) -> exists log, kloop hash handler step g snd bs k (Datatypes.S (length p)) w1 = KUB log)).
      { intros w1 [S1 S2]. rewrite LP.
        destruct (IH (p ++ [a]) k w1 EL' ltac:(cbn in LK; lia)) as [A B]; [rewrite S1; exact EG|exact LN|rewrite S2; exact HS|].
        rewrite S2 in A, B. split.
        - intros H. apply A. intros x Hx. apply H. right. exact Hx.
        - intros (x & [Hx|Hx] & HN); [congruence|]. apply B. exists x. tauto. }
      destruct (kid hash d =? id); [apply TAIL; split; reflexivity|].
      destruct (quiet_receive step a id bs (md_recvs d) w) as (w1 & -> & SO). cbn [kbind]. apply TAIL, SO.
  Qed.

  Lemma quiet_loop_mgr step g snd bs k w : kinv w ->
    (length (listed (booked (k_log w)) g) < k)%nat ->
    match snd with inl s => k_mod w s <> None | inr _ => True end ->
    (~ broken (booked (k_log w)) g -> exists w', kloop hash handler step g snd bs k 0 w = KOk w') /\
    (broken (booked (k_log w)) g -> exists log, kloop hash handler step g snd bs k 0 w = KUB log).
  Proof.
    intros I LK HS. destruct (k_mgr w g) as [[tab cnt]|] eqn:EG.
    - destruct (mgr_some w g tab cnt I EG) as (n & l & r & EM & LN & EC & ET). subst tab cnt.
      unfold broken, listed in *. rewrite EM in *.
      destruct (quiet_loop step g snd bs n l r l [] k w eq_refl LK EG LN HS) as [A B]. split.
      + intros H. apply A. intros x Hx E. apply H. exists x. rewrite <- (ki_mod w I). tauto.
      + intros (x & Hx & E). apply B. exists x. rewrite (ki_mod w I). tauto.
    - unfold broken. rewrite (mgr_none w g I EG). split; [tauto|]. intros _.
      destruct k as [|k]; [lia|]. cbn [kloop]. rewrite EG. eexists. reflexivity.
  Qed.

  Lemma quiet_defined w c : kinv w -> exists F, forall fuel, (F <= fuel)%nat ->
    (~ fault (booked (k_log w)) (booked (k_log w)) c -> exists w', krun fuel w c = KOk w') /\
    (fault (booked (k_log w)) (booked (k_log w)) c -> exists log, krun fuel w c = KUB log).
  Proof.
    intros I. set (b := booked (k_log w)).
    assert (X : sending c \/ ~ sending c) by (destruct c; cbn; tauto).
    set (w0 := kemit w (KBegin c)).
    assert (I0 : kinv w0) by (apply kinv_quiet; [exact I|exact Logic.I]).
    assert (B0 : booked (k_log w0) = b) by (cbn [w0 kemit k_log]; apply booked_quiet; exact Logic.I).
    destruct X as [HS|NS].
    - destruct c as [g n|g h|g h|g|a d g|a c|a|a g|a v|g D v]; try destruct HS.
      + destruct (mod_at b a) as [[d g]|] eqn:HM.
        2: { exists 1%nat. intros [|f] LF; [lia|]. cbn [MedNetModel.krun kdo]. fold w0. cbn [fault]. rewrite HM.
             split; [tauto|]. intros _. rewrite (ki_mod w0 I0), B0, HM. eexists. reflexivity. }
        exists (2 + length (listed b g))%nat. intros [|f] LF; [lia|]. cbn [MedNetModel.krun kdo]. fold w0.
        rewrite (ki_mod w0 I0), B0, HM. cbn [kneed kbind fault]. rewrite HM.
        destruct (k_mgr w0 g) as [t|] eqn:EG; cbn [kneed kbind].
        2: { pose proof (mgr_none w0 g I0 EG) as NG. rewrite B0 in NG.
             assert (BR : broken b g) by (unfold broken; rewrite NG; exact Logic.I). split; [tauto|]. intros _. eexists. reflexivity. }
        rewrite hook_quiet. cbn [kbody_run kbind]. cbv zeta. rewrite leaves_len, Nat.eqb_refl.
        set (w1 := kemit w0 (KHook g (kid hash d) (enc (md_sends d) v))).
        assert (I1 : kinv w1) by (apply kinv_quiet; [exact I0|exact Logic.I]).
        assert (B1 : booked (k_log w1) = b) by (cbn [w1 kemit k_log]; rewrite booked_quiet by exact Logic.I; exact B0).
        destruct (quiet_loop_mgr (krun f) g (inl a) (leaves (k_log w1) g (kid hash d) (enc (md_sends d) v)) f w1 I1) as [A B].
        { rewrite B1. lia. }
        { change (k_mod w1 a) with (k_mod w0 a). rewrite (ki_mod w0 I0), B0, HM. discriminate. }
        rewrite B1 in A, B. split.
        * intros NF. destruct A as [w2 ->]; [tauto|]. eexists. reflexivity.
        * intros [E|HB]; [congruence|]. destruct (B HB) as [log ->]. eexists. reflexivity.
      + exists (2 + length (listed b g))%nat. intros [|f] LF; [lia|]. cbn [MedNetModel.krun kdo fault]. fold w0.
        destruct (quiet_loop_mgr (krun f) g (inr D) (enc D v) f w0 I0) as [A B]; [rewrite B0; lia|exact Logic.I|].
        rewrite B0 in A, B. split.
        * intros NF. destruct (A NF) as [w2 ->]. eexists. reflexivity.
        * intros HB. destruct (B HB) as [log ->]. eexists. reflexivity.
    - exists 1%nat. intros [|f] LF; [lia|]. cbn [MedNetModel.krun]. fold w0.
      destruct (kdo_agrees hash enc handler hook leaves (krun f) f w0 c I0 NS) as [[F ->]|(NF & w1 & -> & _)]; cbn [kbind];
        rewrite B0 in *; (split; [intros G|intros G]); try contradiction; eexists; reflexivity.
  Qed.
End Quiet.

(** Calls other than sends, whatever the handlers. *)
Lemma others_defined hash enc handler hook leaves w c fuel : kinv w -> ~ sending c -> (1 <= fuel)%nat ->
  (fault (booked (k_log w)) (booked (k_log w)) c /\ krun hash enc handler hook leaves fuel w c = KUB (k_log w ++ [KBegin c])) \/
  (~ fault (booked (k_log w)) (booked (k_log w)) c /\
   exists w', krun hash enc handler hook leaves fuel w c = KOk w' /\ kinv w' /\ k_log w' = k_log w ++ [KBegin c; KEnd c]).
Proof.
  intros I NS LF. destruct fuel as [|f]; [lia|]. cbn [krun].
  set (w0 := kemit w (KBegin c)).
  assert (I0 : kinv w0) by (apply kinv_quiet; [exact I|exact Logic.I]).
  assert (B0 : booked (k_log w0) = booked (k_log w)) by (cbn [w0 kemit k_log]; apply booked_quiet; exact Logic.I).
  destruct (kdo_agrees hash enc handler hook leaves (krun hash enc handler hook leaves f) f w0 c I0 NS) as [[F ->]|(NF & w1 & -> & EL & I1)];
    cbn [kbind]; rewrite B0 in *.
  - left. split; [exact F|reflexivity].
  - right. split; [exact NF|]. eexists. split; [reflexivity|]. split; [exact I1|]. cbn [kemit k_log]. rewrite EL.
    cbn [w0 kemit k_log]. rewrite <- app_assoc. reflexivity.
Qed.
