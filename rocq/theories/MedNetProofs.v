(** Proofs about managers and modules with lifetimes. *)
From Verif Require Export MedNetSpec.
From Verif Require Import ObserverProofs1 MediatorProofs.

Lemma booked_snoc log e : booked (log ++ [e]) = book_step (booked log) e.
Proof. unfold booked. rewrite fold_left_app. reflexivity. Qed.
Lemma born_snoc log e : born (log ++ [e]) = born_step (born log) e.
Proof. unfold born. rewrite fold_left_app. reflexivity. Qed.

Lemma finished_app l1 l2 : finished l1 -> finished l2 -> finished (l1 ++ l2).
Proof.
  induction 1 as [|g id bs l H IH|a D bs l H IH|c l l' H IH H' IH']; intros F; cbn [app]; [exact F| | |].
  - constructor. apply IH, F.
  - constructor. apply IH, F.
  - rewrite <- app_assoc. cbn [app]. constructor; [exact H|apply IH', F].
Qed.
Lemma finished_call c l : finished l -> finished (KBegin c :: l ++ [KEnd c]).
Proof. intros F. constructor; [exact F|constructor]. Qed.

Definition mgr_ok (x : option (list ptr * nat)) (y : option (nat * list addr)) : Prop :=
  match x, y with
  | None, None => True
  | Some (tab, cnt), Some (n, l) => length tab = n /\ cnt = length l /\ exists r, tab = map Some l ++ r
  | _, _ => False
  end.
Record kinv (w : kworld) : Prop := {
  ki_mgr : forall g, mgr_ok (k_mgr w g) (mgr_at (booked (k_log w)) g);
  ki_mod : forall a, k_mod w a = mod_at (booked (k_log w)) a
}.
Lemma kinv_fresh : kinv kfresh.
Proof. split; intros; reflexivity. Qed.

Definition kquiet (e : kev) : Prop := match e with KEnd _ => False | _ => True end.
Lemma booked_quiet log e : kquiet e -> booked (log ++ [e]) = booked log.
Proof. intros Q. rewrite booked_snoc. destruct e; [reflexivity..|destruct Q]. Qed.
Lemma kinv_quiet w e : kinv w -> kquiet e -> kinv (kemit w e).
Proof. intros [H1 H2] Q. split; intros; cbn [kemit k_mgr k_mod k_log]; rewrite booked_quiet by exact Q; auto. Qed.
Lemma kinv_send w c : kinv w -> sending c -> kinv (kemit w (KEnd c)).
Proof.
  intros [H1 H2] Q. split; intros; cbn [kemit k_mgr k_mod k_log]; rewrite booked_snoc; destruct c; try destruct Q;
    cbn [book_step]; auto.
Qed.

Lemma kput_upd {A} (f : addr -> option A) f' a x : (forall b, f b = f' b) -> forall b, kput f a x b = bput f' a x b.
Proof.
  intros H b. unfold kput, bput. destruct (Pos.eqb_spec b a) as [E|N], (Pos.eq_dec b a) as [E'|N']; congruence.
Qed.
Lemma mgr_put f f' a x y : (forall g, mgr_ok (f g) (f' g)) -> mgr_ok x y ->
  forall g, mgr_ok (kput f a x g) (bput f' a y g).
Proof.
  intros H HX g. unfold kput, bput. destruct (Pos.eqb_spec g a) as [E|N], (Pos.eq_dec g a) as [E'|N']; try congruence. apply H.
Qed.
Lemma mgr_edit w g tab cnt n l f : kinv w -> mgr_at (booked (k_log w)) g = Some (n, l) ->
  mgr_ok (Some (tab, cnt)) (Some (n, f l)) ->
  forall h, mgr_ok (kput (k_mgr w) g (Some (tab, cnt)) h) (edit (booked (k_log w)) g f h).
Proof.
  intros I E HX h. unfold edit. rewrite E. apply mgr_put; [apply (ki_mgr w I)|exact HX].
Qed.

Lemma mgr_none w g : kinv w -> k_mgr w g = None -> mgr_at (booked (k_log w)) g = None.
Proof. intros I E. pose proof (ki_mgr w I g) as H. rewrite E in H. destruct (mgr_at _ g) as [[n l]|]; [destruct H|reflexivity]. Qed.
Lemma mgr_some w g tab cnt : kinv w -> k_mgr w g = Some (tab, cnt) ->
  exists n l r, mgr_at (booked (k_log w)) g = Some (n, l) /\ length tab = n /\ cnt = length l /\ tab = map Some l ++ r.
Proof.
  intros I E. pose proof (ki_mgr w I g) as H. rewrite E in H. destruct (mgr_at _ g) as [[n l]|]; [|destruct H].
  destruct H as (H1 & H2 & r & H3). exists n, l, r. tauto.
Qed.

(** ** tables *)
Lemma tab_slot (l : list addr) r i : (i < length l)%nat ->
  exists a, slot (map Some l ++ r) i = Ok (Some a) /\ nth_error l i = Some a.
Proof.
  intros L. destruct (nth_error l i) as [a|] eqn:E; [|apply nth_error_None in E; lia].
  exists a. split; [|reflexivity]. unfold slot. rewrite nth_error_app1 by (rewrite map_length; exact L).
  rewrite nth_error_map, E. reflexivity.
Qed.
Lemma tab_add l r n a : length (map Some l ++ r) = n -> (length l < n)%nat ->
  exists tab, add_module (map Some l ++ r) (length l) a = Ok (tab, S (length l)) /\
    mgr_ok (Some (tab, S (length l))) (Some (n, l ++ [a])).
Proof.
  intros H L. destruct r as [|y r].
  { exfalso. rewrite app_nil_r, map_length in H. lia. }
  unfold add_module.
  assert (HP : put_slot (map Some l ++ y :: r) (length l) (Some a) = Ok (map Some l ++ Some a :: r)).
  { rewrite <- (map_length (@Some positive) l). apply put_app. }
  rewrite HP. cbn [bind]. eexists. split; [reflexivity|]. cbn [mgr_ok]. split; [|split].
  - rewrite <- H, !app_length. reflexivity.
  - rewrite app_length. cbn. lia.
  - exists r. rewrite map_app, <- app_assoc. reflexivity.
Qed.
Lemma tab_add_full l r n a : length (map Some l ++ r) = n -> (n <= length l)%nat ->
  add_module (map Some l ++ r) (length l) a = UB.
Proof. intros H L. unfold add_module. rewrite put_out by lia. reflexivity. Qed.
Lemma split_first a (l : list addr) : In a l -> exists l1 l2, l = l1 ++ a :: l2 /\ ~ In a l1.
Proof.
  induction l as [|x l IH]; intros HI; [destruct HI|]. destruct (Pos.eq_dec x a) as [E|N].
  - exists [], l. subst. split; [reflexivity|tauto].
  - destruct HI as [HI|HI]; [congruence|]. destruct (IH HI) as (l1 & l2 & -> & HN).
    exists (x :: l1), l2. split; [reflexivity|]. intros [H|H]; [congruence|contradiction].
Qed.
Lemma tab_remove l r n a : length (map Some l ++ r) = n -> (length l < n)%nat \/ ~ In a l ->
  exists t, remove_from (map Some l ++ r) (length l) 0 (length l) a = Ok t /\
    mgr_ok (Some t) (Some (n, remove_first a l)).
Proof.
  intros H L. destruct (in_dec Pos.eq_dec a l) as [HI|HN].
  - destruct (split_first a l HI) as (l1 & l2 & EL & HN).
    destruct (remove_from_present a l2 l1 [] r (length l) HN) as [y Hy]; [rewrite EL; reflexivity|].
    cbn [app length] in Hy. rewrite <- EL in Hy. rewrite Hy.
    assert (LT : (length l < n)%nat) by (destruct L; [assumption|contradiction]).
    destruct r as [|z r].
    { exfalso. rewrite app_nil_r, map_length in H. lia. }
    assert (HP : put_slot (map Some (l1 ++ l2) ++ Some y :: z :: r) (length l) None
                 = Ok (map Some (l1 ++ l2) ++ Some y :: None :: r)).
    { replace (length l) with (length (map Some (l1 ++ l2) ++ [Some y])).
      - replace (map Some (l1 ++ l2) ++ Some y :: z :: r) with ((map Some (l1 ++ l2) ++ [Some y]) ++ z :: r)
          by (rewrite <- app_assoc; reflexivity).
        rewrite put_app, <- app_assoc. reflexivity.
      - rewrite app_length, map_length, EL, !app_length. cbn. lia. }
    rewrite HP. cbn [bind]. eexists. split; [reflexivity|]. cbn [mgr_ok]. split; [|split].
    + rewrite <- H, EL, !app_length, !map_length, !app_length. cbn [length]. lia.
    + rewrite remove_first_in by exact HI. lia.
    + rewrite EL, remove_first_split by exact HN. eexists. reflexivity.
  - pose proof (remove_from_absent a l [] r (length l) HN) as E. cbn [app length] in E. rewrite E.
    eexists. split; [reflexivity|]. cbn [mgr_ok]. rewrite (remove_first_notin a l HN).
    split; [exact H|]. split; [reflexivity|]. exists r. reflexivity.
Qed.
Lemma tab_remove_full l r n a : length (map Some l ++ r) = n -> (n <= length l)%nat -> In a l ->
  remove_from (map Some l ++ r) (length l) 0 (length l) a = UB.
Proof.
  intros H L HI. destruct (split_first a l HI) as (l1 & l2 & EL & HN).
  destruct (remove_from_present a l2 l1 [] r (length l) HN) as [y Hy]; [rewrite EL; reflexivity|].
  cbn [app length] in Hy. rewrite <- EL in Hy. rewrite Hy. rewrite put_out; [reflexivity|].
  rewrite !app_length, map_length, app_length. cbn [length].
  assert (E : length l = length (l1 ++ a :: l2)) by (rewrite EL; reflexivity). rewrite app_length in E. cbn in E.
  rewrite app_length, map_length in H. lia.
Qed.

Section Agree.
  Variable hash : string -> Z.
  Variable enc : mty -> Z -> list Z.
  Variable handler : list kev -> addr -> mty -> list Z -> kbody.
  Variable hook : list kev -> addr -> Z -> list Z -> kbody.
  Variable leaves : list kev -> addr -> Z -> list Z -> list Z.

  (** A call that is not a send is either at fault, or does what the book says. *)
  Definition agrees (w : kworld) (c : kcall) (x : kres kworld) : Prop :=
    (fault (booked (k_log w)) (booked (k_log w)) c /\ x = KUB (k_log w)) \/
    (~ fault (booked (k_log w)) (booked (k_log w)) c /\
     exists w1, x = KOk w1 /\ k_log w1 = k_log w /\ kinv (kemit w1 (KEnd c))).

  Ltac ok_mgr := right; split; [|eexists; split; [reflexivity|]; split; [reflexivity|]; split;
    [intros g1|intros a1]; cbn [kemit put_mgr put_mod k_mgr k_mod k_log]; rewrite booked_snoc; cbn [book_step mgr_at mod_at]].

  Lemma kdo_agrees self k w c : kinv w -> ~ sending c -> agrees w c (kdo hash enc handler hook leaves self k w c).
  Proof.
    intros I NS. pose proof (ki_mgr w I) as IG. pose proof (ki_mod w I) as IM.
    destruct c as [g n|g h|g h|g|a d g|a c|a|a g|a v|g D v]; cbn [kdo]; try (exfalso; apply NS; exact Logic.I); clear NS.
    - destruct (k_mgr w g) as [[tab cnt]|] eqn:EG; cbn [kvacant kbind].
      + left. split; [|reflexivity]. cbn [fault]. destruct (mgr_some w g tab cnt I EG) as (n0 & l & r & E & _). rewrite E. discriminate.
      + ok_mgr.
        * cbn [fault]. rewrite (mgr_none w g I EG). tauto.
        * apply mgr_put; [exact IG|]. cbn [mgr_ok]. split; [apply repeat_length|]. split; [reflexivity|]. exists (repeat None n). reflexivity.
        * apply IM.
    - destruct (k_mgr w g) as [[tab cnt]|] eqn:EG; cbn [kvacant kbind].
      { left. split; [|reflexivity]. cbn [fault]. left. destruct (mgr_some w g tab cnt I EG) as (n0 & l & r & E & _). rewrite E. discriminate. }
      pose proof (mgr_none w g I EG) as NG.
      destruct (k_mgr w h) as [[tab cnt]|] eqn:EH; cbn [kneed kbind].
      2: { left. split; [|reflexivity]. right. apply (mgr_none w h I EH). }
      destruct (mgr_some w h tab cnt I EH) as (n & l & r & E & H).
      ok_mgr.
      + cbn [fault]. rewrite NG, E. intros [X|X]; [apply X; reflexivity|discriminate].
      + apply mgr_put; [exact IG|]. rewrite <- EH. apply IG.
      + apply IM.
    - destruct (k_mgr w g) as [[old cn]|] eqn:EG; cbn [kneed kbind].
      2: { left. split; [|reflexivity]. cbn [fault]. rewrite (mgr_none w g I EG). exact Logic.I. }
      destruct (mgr_some w g old cn I EG) as (n & l & r & E & LN & _).
      destruct (k_mgr w h) as [[tab cnt]|] eqn:EH; cbn [kneed kbind].
      2: { left. split; [|reflexivity]. cbn [fault]. rewrite E, (mgr_none w h I EH). exact Logic.I. }
      destruct (mgr_some w h tab cnt I EH) as (n2 & l2 & r2 & E2 & LN2 & _).
      destruct (Nat.eqb_spec (length old) (length tab)) as [EL|NL].
      + ok_mgr.
        * cbn [fault]. rewrite E, E2. lia.
        * apply mgr_put; [exact IG|]. rewrite <- EH. apply IG.
        * apply IM.
      + left. split; [|reflexivity]. cbn [fault]. rewrite E, E2. lia.
    - destruct (k_mgr w g) as [[tab cnt]|] eqn:EG; cbn [kneed kbind].
      2: { left. split; [|reflexivity]. apply (mgr_none w g I EG). }
      destruct (mgr_some w g tab cnt I EG) as (n0 & l & r & E & _).
      ok_mgr.
      + cbn [fault]. rewrite E. discriminate.
      + apply mgr_put; [exact IG|]. exact Logic.I.
      + apply IM.
    - destruct (k_mod w a) as [[d0 g0]|] eqn:EA; cbn [kvacant kbind].
      { left. split; [|reflexivity]. cbn [fault]. left. rewrite <- IM, EA. discriminate. }
      assert (NA : mod_at (booked (k_log w)) a = None) by (rewrite <- IM; exact EA).
      destruct (k_mgr w g) as [[tab cnt]|] eqn:EG; cbn [kneed kbind].
      2: { left. split; [|reflexivity]. cbn [fault]. right. rewrite (mgr_none w g I EG). exact Logic.I. }
      destruct (mgr_some w g tab cnt I EG) as (n & l & r & E & LN & EC & ET). subst tab cnt.
      destruct (Nat.eq_dec (length l) n) as [FU|NF].
      + rewrite (tab_add_full l r n a LN) by lia. left. cbn [klift kbind]. split; [|reflexivity].
        cbn [fault]. rewrite E. right. exact FU.
      + assert (LT : (length l < n)%nat) by (rewrite <- LN, app_length, map_length in NF |- *; lia).
        destruct (tab_add l r n a LN LT) as (tab & -> & HT). cbn [klift kbind].
        ok_mgr.
        * cbn [fault]. rewrite NA, E. intros [X|X]; [apply X; reflexivity|lia].
        * eapply mgr_edit; [exact I|exact E|exact HT].
        * apply kput_upd, IM.
    - destruct (k_mod w a) as [x|] eqn:EA; cbn [kvacant kbind].
      { left. split; [|reflexivity]. cbn [fault]. left. rewrite <- IM, EA. discriminate. }
      destruct (k_mod w c) as [x|] eqn:EC; cbn [kneed kbind].
      2: { left. split; [|reflexivity]. right. rewrite <- IM. exact EC. }
      ok_mgr.
      + cbn [fault]. rewrite <- !IM, EA, EC. intros [X|X]; [apply X; reflexivity|discriminate].
      + apply IG.
      + rewrite <- IM, EC. apply kput_upd, IM.
    - destruct (k_mod w a) as [[d g]|] eqn:EA; cbn [kneed kbind].
      2: { left. split; [|reflexivity]. cbn [fault]. rewrite <- IM, EA. exact Logic.I. }
      assert (HA : mod_at (booked (k_log w)) a = Some (d, g)) by (rewrite <- IM; exact EA).
      destruct (k_mgr w g) as [[tab cnt]|] eqn:EG; cbn [kneed kbind].
      2: { left. split; [|reflexivity]. cbn [fault]. rewrite HA, (mgr_none w g I EG). exact Logic.I. }
      destruct (mgr_some w g tab cnt I EG) as (n & l & r & E & LN & EC & ET). subst tab cnt.
      assert (LE : (length l <= n)%nat) by (rewrite <- LN, app_length, map_length; lia).
      destruct (Nat.eq_dec (length l) n) as [FU|NF]; [destruct (in_dec Pos.eq_dec a l) as [HI|HN]|].
      + rewrite (tab_remove_full l r n a LN) by (lia || exact HI). left. cbn [klift kbind]. split; [|reflexivity].
        cbn [fault]. rewrite HA, E. tauto.
      + destruct (tab_remove l r n a LN (or_intror HN)) as ([tab cnt] & -> & HT). cbn [klift kbind].
        ok_mgr.
        * cbn [fault]. rewrite HA, E. tauto.
        * rewrite HA. eapply mgr_edit; [exact I|exact E|exact HT].
        * apply kput_upd, IM.
      + assert (LT : (length l < n)%nat) by lia.
        destruct (tab_remove l r n a LN (or_introl LT)) as ([tab cnt] & -> & HT). cbn [klift kbind].
        ok_mgr.
        * cbn [fault]. rewrite HA, E. tauto.
        * rewrite HA. eapply mgr_edit; [exact I|exact E|exact HT].
        * apply kput_upd, IM.
    - destruct (k_mod w a) as [[d g0]|] eqn:EA; cbn [kneed kbind].
      2: { left. split; [|reflexivity]. cbn [fault]. rewrite <- IM. exact EA. }
      ok_mgr.
      + cbn [fault]. rewrite <- IM, EA. discriminate.
      + apply IG.
      + rewrite <- (IM a), EA. apply kput_upd, IM.
  Qed.
End Agree.

Section MedNet.
  Variable hash : string -> Z.
  Variable enc : mty -> Z -> list Z.
  Variable handler : list kev -> addr -> mty -> list Z -> kbody.
  Variable hook : list kev -> addr -> Z -> list Z -> kbody.
  Variable leaves : list kev -> addr -> Z -> list Z -> list Z.
  Hypothesis leaves_len : forall log g id bs, length (leaves log g id bs) = length bs.
  (** What all calls keep to. *)
  Variable P : kcall -> Prop.
  Hypothesis handler_P : forall log a D bs, kcalls P (handler log a D bs).
  Hypothesis hook_P : forall log g id bs, kcalls P (hook log g id bs).
  (** An invariant of logs. *)
  Variable J : list kev -> Prop.
  Hypothesis J_begin : forall l c, J l -> J (l ++ [KBegin c]).
  Hypothesis J_hook : forall l g id bs, J l -> J (l ++ [KHook g id bs]).
  Hypothesis J_recv : forall l g a d m D bs, J l -> In a (listed (booked l) g) -> mod_at (booked l) a = Some (d, m) ->
    In D (md_recvs d) -> length bs = ty_size D -> J (l ++ [KRecv a D bs]).
  Hypothesis J_end : forall l c, J l -> P c -> ~ fault (booked l) (booked l) c -> ~ sending c -> J (l ++ [KEnd c]).
  Hypothesis J_send : forall l c, J l -> sending c -> J (l ++ [KEnd c]).
  Notation krun := (krun hash enc handler hook leaves).

  Definition kok (w : kworld) : Prop := kinv w /\ J (k_log w).
  Definition ksafe (w : kworld) (x : kres kworld) : Prop :=
    match x with
    | KOk w' => kok w' /\ exists evs, k_log w' = k_log w ++ evs /\ finished evs
    | KUB log => stuck log /\ J log /\ exists evs, log = k_log w ++ evs
    | KFuel => True
    end.
  Lemma ksafe_refl w : kok w -> ksafe w (KOk w).
  Proof. intros I. split; [exact I|]. exists []. rewrite app_nil_r. split; [reflexivity|constructor]. Qed.
  Lemma ksafe_pre w w1 x : (exists evs, k_log w1 = k_log w ++ evs /\ finished evs) -> ksafe w1 x -> ksafe w x.
  Proof.
    intros (e1 & H & F) HS. destruct x as [w'|log|]; cbn in *; [| |exact HS].
    - destruct HS as (K & e2 & H2 & F2). split; [exact K|]. exists (e1 ++ e2). rewrite H2, H, app_assoc.
      split; [reflexivity|]. apply finished_app; assumption.
    - destruct HS as (ST & JL & e2 & H2). split; [exact ST|]. split; [exact JL|]. exists (e1 ++ e2).
      rewrite H2, H, app_assoc. reflexivity.
  Qed.
  Lemma ksafe_bind w x f : ksafe w x ->
    (forall w1, kok w1 -> (exists evs, k_log w1 = k_log w ++ evs /\ finished evs) -> ksafe w1 (f w1)) ->
    ksafe w (kbind x f).
  Proof.
    intros HS HF. destruct x as [w1|log|]; cbn [kbind]; [|exact HS|exact HS].
    destruct HS as (K & HE). eapply ksafe_pre; [exact HE|]. apply HF; assumption.
  Qed.
  Definition may_get (w : kworld) (g a : addr) (d : mdesc) : Prop :=
    In a (listed (booked (k_log w)) g) /\ exists m, mod_at (booked (k_log w)) a = Some (d, m).

  Section Step.
    Variable step : kworld -> kcall -> kres kworld.
    Hypothesis step_safe : forall w c, kok w -> P c -> ksafe w (step w c).

    Lemma kbody_safe b : kcalls P b -> forall w, kok w -> ksafe w (kbody_run step b w).
    Proof.
      induction 1 as [|c k HP HK IH]; intros w I; cbn [kbody_run]; [apply ksafe_refl, I|].
      apply ksafe_bind; [apply step_safe; assumption|]. intros w1 I1 _. apply IH, I1.
    Qed.
    Lemma kconvert_safe g a d D bs w : kok w -> may_get w g a d -> In D (md_recvs d) ->
      ksafe w (kconvert handler step a D bs w).
    Proof.
      intros I (HL & m & HM) HD. unfold kconvert.
      destruct (Nat.eqb_spec (ty_size D) (length bs)) as [E|N]; cbn [negb]; [|apply ksafe_refl, I].
      rewrite E, read_bytes_all. cbn [klift kbind].
      eapply ksafe_pre; [|apply kbody_safe; [apply handler_P|]].
      - exists [KRecv a D bs]. split; [reflexivity|]. repeat constructor.
      - destruct I as [I HJ]. split; [apply kinv_quiet; [exact I|exact Logic.I]|].
        eapply J_recv; [exact HJ|exact HL|exact HM|exact HD|symmetry; exact E].
    Qed.
    Lemma kreceive_safe g a d id bs recvs : forall w, kok w -> may_get w g a d -> incl recvs (md_recvs d) ->
      ksafe w (kreceive hash handler step a recvs id bs w).
    Proof.
      induction recvs as [|D recvs IH]; intros w I HG HI; cbn [kreceive]; [apply ksafe_refl, I|].
      destruct (id =? hash (ty_name D)).
      - eapply kconvert_safe; [exact I|exact HG|]. apply HI. left. reflexivity.
      - apply IH; [exact I|exact HG|]. intros x Hx. apply HI. right. exact Hx.
    Qed.

    (** The context of a loop: the call it belongs to. *)
    Variable before : list kev.
    Variable c : kcall.
    Variable g : addr.
    Variable snd : addr + mty.
    Hypothesis bad_mgr : forall b, broken b g -> fault (booked before) b c.
    Hypothesis bad_snd : forall b, match snd with inl s => mod_at b s = None | inr _ => False end -> fault (booked before) b c.
    Definition inside_call (w : kworld) : Prop := exists since, k_log w = before ++ KBegin c :: since /\ finished since.

    Lemma stuck_here w : inside_call w -> kok w -> fault (booked before) (booked (k_log w)) c -> ksafe w (KUB (k_log w)).
    Proof.
      intros (since & E & F) [_ HJ] HF. split; [exists before, c, since; tauto|]. split; [exact HJ|].
      exists []. rewrite app_nil_r. reflexivity.
    Qed.
    Lemma inside_more w w1 : inside_call w -> (exists evs, k_log w1 = k_log w ++ evs /\ finished evs) -> inside_call w1.
    Proof.
      intros (since & E & F) (evs & H & F2). exists (since ++ evs). rewrite H, E, <- app_assoc. cbn [app].
      split; [reflexivity|]. apply finished_app; assumption.
    Qed.

    Lemma kloop_safe bs k : forall i w, kok w -> inside_call w -> ksafe w (kloop hash handler step g snd bs k i w).
    Proof.
      induction k as [|k IH]; intros i w K C; cbn [kloop]; [exact Logic.I|]. destruct K as [I HJ].
      destruct (k_mgr w g) as [[tab cnt]|] eqn:EG; cbn [kneed kbind].
      2: { apply stuck_here; [exact C|split; assumption|]. apply bad_mgr. unfold broken. rewrite (mgr_none w g I EG). exact Logic.I. }
      destruct (mgr_some w g tab cnt I EG) as (n & l & r & EM & LN & EC & ET). subst tab cnt.
      destruct (Nat.ltb_spec i (length l)) as [L|L]; [|apply ksafe_refl; split; assumption].
      destruct (tab_slot l r i L) as (a & -> & HA). cbn [klift kbind kneed].
      destruct (k_mod w a) as [[d g']|] eqn:EA; cbn [kneed kbind].
      2: { apply stuck_here; [exact C|split; assumption|]. apply bad_mgr. unfold broken. rewrite EM. exists a.
           split; [apply (nth_error_In _ _ HA)|]. rewrite <- (ki_mod w I). exact EA. }
      assert (HS : (exists id, kident hash snd w = KOk id) \/
                   (kident hash snd w = KUB (k_log w) /\ fault (booked before) (booked (k_log w)) c)).
      { destruct snd as [s|D]; cbn [kident]; [|left; eexists; reflexivity].
        destruct (k_mod w s) as [[ds gs]|] eqn:ES; cbn [kneed kbind]; [left; eexists; reflexivity|].
        right. split; [reflexivity|]. apply bad_snd. rewrite <- (ki_mod w I). exact ES. }
      destruct HS as [[id ->]|[-> HF]]; cbn [kbind]; [|apply stuck_here; [exact C|split; assumption|exact HF]].
      destruct (kid hash d =? id); [apply IH; [split; assumption|exact C]|].
      apply ksafe_bind.
      { apply (kreceive_safe g a d); [split; assumption| |apply incl_refl]. split.
        - unfold listed. rewrite EM. apply (nth_error_In _ _ HA).
        - exists g'. rewrite <- (ki_mod w I). exact EA. }
      intros w1 K1 HE. apply IH; [exact K1|]. eapply inside_more; eassumption.
    Qed.
  End Step.

  Lemma krun_safe fuel : forall w c, kok w -> P c -> ksafe w (krun fuel w c).
  Proof.
    induction fuel as [|f IH]; intros w c [I HJ] HP; [exact Logic.I|]. cbn [MedNetModel.krun].
    set (w0 := kemit w (KBegin c)).
    assert (I0 : kinv w0) by (apply kinv_quiet; [exact I|exact Logic.I]).
    assert (J0 : J (k_log w0)) by (apply J_begin, HJ).
    assert (B0 : booked (k_log w0) = booked (k_log w)) by (cbn [w0 kemit k_log]; apply booked_quiet; exact Logic.I).
    assert (IC : inside_call (k_log w) c w0) by (exists []; split; [reflexivity|constructor]).
    assert (UBC : fault (booked (k_log w)) (booked (k_log w0)) c -> ksafe w (KUB (k_log w0))).
    { intros F. split; [exists (k_log w), c, []; split; [reflexivity|]; split; [constructor|exact F]|].
      split; [exact J0|]. exists [KBegin c]. reflexivity. }
    assert (SEND : sending c -> forall x, ksafe w0 x -> ksafe w (kbind x (fun w1 => KOk (kemit w1 (KEnd c))))).
    { intros HS x SX. destruct x as [w1|log|]; cbn [kbind]; [| |exact Logic.I].
      - destruct SX as ([I1 J1] & evs & E & F). split; [split; [apply kinv_send; assumption|apply J_send; assumption]|].
        exists (KBegin c :: evs ++ [KEnd c]). cbn [kemit k_log]. rewrite E. cbn [w0 kemit k_log]. rewrite <- !app_assoc.
        split; [reflexivity|]. apply finished_call, F.
      - destruct SX as (ST & JL & evs & E). split; [exact ST|]. split; [exact JL|]. exists (KBegin c :: evs).
        rewrite E. cbn [w0 kemit k_log]. rewrite <- app_assoc. reflexivity. }
    assert (REST : ~ sending c -> ksafe w (kbind (kdo hash enc handler hook leaves (krun f) f w0 c)
                                                 (fun w1 => KOk (kemit w1 (KEnd c))))).
    { intros NS. destruct (kdo_agrees hash enc handler hook leaves (krun f) f w0 c I0 NS) as [[F ->]|(NF & w1 & -> & EL & I1)]; cbn [kbind].
      - apply UBC. destruct c; try exact F; exfalso; apply NS; exact Logic.I.
      - split; [split; [exact I1|cbn [kemit k_log]; rewrite EL; apply J_end; assumption]|].
        exists (KBegin c :: [] ++ [KEnd c]). cbn [kemit k_log]. rewrite EL. cbn [w0 kemit k_log].
        rewrite <- app_assoc. split; [reflexivity|]. apply finished_call. constructor. }
    destruct c as [g n|g h|g h|g|a d g|a c|a|a g|a v|g D v].
    9: { apply SEND; [exact Logic.I|]. cbn [kdo]. clear SEND.
      destruct (k_mod w0 a) as [[d g]|] eqn:EA; cbn [kneed kbind].
      2: { eapply ksafe_pre; [|]; [exists []; rewrite app_nil_r; split; [reflexivity|constructor]|].
           split; [|split; [exact J0|exists []; rewrite app_nil_r; reflexivity]].
           exists (k_log w), (KSend a v), []. split; [reflexivity|]. split; [constructor|].
           cbn [fault]. rewrite <- B0, <- (ki_mod w0 I0), EA. exact Logic.I. }
      assert (HA : mod_at (booked (k_log w)) a = Some (d, g)) by (rewrite <- B0, <- (ki_mod w0 I0); exact EA).
      assert (BM : forall b, broken b g -> fault (booked (k_log w)) b (KSend a v)).
      { intros b HB. cbn [fault]. rewrite HA. right. exact HB. }
      destruct (k_mgr w0 g) as [t|] eqn:EG; cbn [kneed kbind].
      2: { apply (stuck_here (k_log w) (KSend a v)); [exact IC|split; assumption|]. apply BM. unfold broken.
           rewrite (mgr_none w0 g I0 EG). exact Logic.I. }
      set (bs := enc (md_sends d) v).
      apply ksafe_bind.
      - eapply ksafe_pre; [|apply kbody_safe; [exact IH|apply hook_P|]].
        + exists [KHook g (kid hash d) bs]. split; [reflexivity|]. repeat constructor.
        + split; [apply kinv_quiet; [exact I0|exact Logic.I]|apply J_hook, J0].
      - intros w1 K1 HE. cbv zeta. rewrite leaves_len, Nat.eqb_refl.
        apply (kloop_safe (krun f) IH (k_log w) (KSend a v)); [exact BM| |exact K1|].
        + intros b HB. cbn [fault]. rewrite HA. left. exact HB.
        + eapply inside_more; eassumption. }
    9: { apply SEND; [exact Logic.I|]. cbn [kdo]. clear SEND.
      apply (kloop_safe (krun f) IH (k_log w) (KMgrSend g D v)); [|intros b []|split; assumption|exact IC].
      intros b HB. exact HB. }
    all: apply REST; intros [].
  Qed.

  Lemma krun_all_safe fuel cs : forall w, kok w -> Forall P cs ->
    match krun_all hash enc handler hook leaves fuel w cs with
    | KOk w' => kok w' | KUB log => stuck log /\ J log | KFuel => True end.
  Proof.
    induction cs as [|c cs IH]; intros w K HF; cbn [krun_all]; [exact K|]. inversion HF; subst.
    pose proof (krun_safe fuel w c K ltac:(assumption)) as HS.
    destruct (krun fuel w c) as [w1|log|]; cbn [kbind]; [|destruct HS as (A & B & _); split; assumption|exact Logic.I].
    apply IH; [apply HS|assumption].
  Qed.
End MedNet.
