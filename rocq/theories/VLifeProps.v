(** C113, C114: value observables and observeds that are constructed and destroyed. *)
From Verif Require Export VLifeProofs4.

Lemma reaches_ok ty Max upd disc w : (forall s, ity_ok (ty s)) -> yreaches ty Max upd disc w -> yok ty Max w.
Proof.
  intros T (fuel & calls & E). pose proof (yrun_all_safe ty Max T upd disc fuel calls yfresh (yok_fresh ty Max)) as H.
  rewrite E in H. exact H.
Qed.

(** Whatever programs and callbacks do: behaviour is undefined only in a call to an object that
    does not exist, of an operator that overflows, or in one that goes through observeds whose
    observable was meanwhile ended, cleared or (with a vector) grown, or at a pointer, among as
    many as there were at the beginning, to an observed that has ended. *)
Theorem C113_undefined_means : forall ty Max upd disc fuel calls log, (forall s, ity_ok (ty s)) ->
  yrun_all ty Max upd disc fuel yfresh calls = YUB log -> ystuck ty Max log.
Proof.
  intros ty Max upd disc fuel calls log T E. pose proof (yrun_all_safe ty Max T upd disc fuel calls yfresh (yok_fresh ty Max)) as H.
  rewrite E in H. apply H.
Qed.

(** ... and no call goes on past such a fault: every callback goes to the observed that is
    then at its turn, with the value published, and every call returns what it should, after
    as many callbacks as there were observeds when it began. *)
Theorem C113_goes_on : forall ty Max upd disc fuel calls log, (forall s, ity_ok (ty s)) ->
  ylog (yrun_all ty Max upd disc fuel yfresh calls) = Some log -> yfair ty Max log.
Proof.
  intros ty Max upd disc fuel calls log T E. pose proof (yrun_all_safe ty Max T upd disc fuel calls yfresh (yok_fresh ty Max)) as H.
  destruct (yrun_all ty Max upd disc fuel yfresh calls) as [w|l|]; inversion E; subst; apply H.
Qed.

(** No callback starts in an observed that does not exist. *)
Theorem C113_only_live : forall ty Max upd disc fuel calls log, (forall s, ity_ok (ty s)) ->
  ylog (yrun_all ty Max upd disc fuel yfresh calls) = Some log -> lives ty Max log.
Proof.
  intros ty Max upd disc fuel calls log T E. pose proof (yrun_all_safe ty Max T upd disc fuel calls yfresh (yok_fresh ty Max)) as H.
  destruct (yrun_all ty Max upd disc fuel yfresh calls) as [w|l|]; inversion E; subst; apply (valid_lives ty Max); apply H.
Qed.

(** With a fixed capacity no observed is listed twice, and never more than there is room for. *)
Theorem C113_listed_once : forall ty Max upd disc w s x, (forall s, ity_ok (ty s)) ->
  yreaches ty Max upd disc w -> Max s <> 0 -> obl_at (ybooked ty Max (y_log w)) s = Some x ->
  NoDup (e_regs x) /\ (length (e_regs x) <= max_observers (Max s))%nat.
Proof.
  intros ty Max upd disc w s x T R MN E. pose proof (reaches_ok _ _ _ _ _ T R) as (_ & _ & V).
  apply (once_log ty Max (y_log w) V s x); [|exact E]. unfold vector. apply Z.eqb_neq, MN.
Qed.

(** If observeds end only outside callbacks and only when no observable goes through them,
    ended observeds cause no undefined behaviour, whatever the callbacks do besides. *)
Theorem C113_orderly : forall ty Max upd disc fuel calls log, (forall s, ity_ok (ty s)) ->
  yrun_all ty Max upd disc fuel yfresh calls = YUB log -> orderly ty Max log ->
  exists before c since, log = before ++ YBegin c :: since /\ yfinished since /\
    misused ty (ybooked ty Max before) (ybooked ty Max log) c.
Proof.
  intros ty Max upd disc fuel calls log T E O. pose proof (yrun_all_safe ty Max T upd disc fuel calls yfresh (yok_fresh ty Max)) as H.
  rewrite E in H. destruct H as ((before & c & since & -> & FS & FT) & _ & V). exists before, c, since.
  split; [reflexivity|]. split; [exact FS|].
  assert (D : forall s, replaced (ybooked ty Max before) (ybooked ty Max (before ++ YBegin c :: since)) s \/
     dangling (ybooked ty Max before) (ybooked ty Max (before ++ YBegin c :: since)) s (rounds 0 since) ->
     replaced (ybooked ty Max before) (ybooked ty Max (before ++ YBegin c :: since)) s).
  { intros s [R|DG]; [exact R|].
    assert (DEC : replaced (ybooked ty Max before) (ybooked ty Max (before ++ YBegin c :: since)) s \/
                ~ replaced (ybooked ty Max before) (ybooked ty Max (before ++ YBegin c :: since)) s).
    { unfold replaced. destruct (obl_at _ s) as [x|]; [|left; exact I]. destruct (obl_at _ s) as [y|]; [|left; exact I].
      destruct (Nat.eq_dec (e_since x) (e_since y)) as [->|N]; [right; congruence|left; exact N]. }
    destruct DEC as [R|NR]; [exact R|]. exfalso.
    exact (orderly_no_dangling ty Max before c since s V O FS NR DG). }
  destruct c; cbn [misused yfault] in *; try exact FT; try (apply D, FT).
  destruct FT as [R|[DG|L]]; [left; exact R|left; apply D; right; exact DG|right; exact L].
Qed.

(** With callbacks that return at once a call is undefined exactly when an object it is given
    does not exist, it goes through an observed that has ended, or its operator overflows;
    otherwise it does what it should, to each observed listed, once and in order. *)
Theorem C113_idle_exactly : forall ty Max upd disc w f c, (forall s, ity_ok (ty s)) ->
  idle_update upd -> idle_disc disc -> yreaches ty Max upd disc w ->
  let b := ybooked ty Max (y_log w) in
  (yblocked ty b c /\ exists log, yrun ty Max upd disc (S f) w c = YUB log) \/
  (~ yblocked ty b c /\ exists w' evs r, yrun ty Max upd disc (S f) w c = YOk w' /\
     y_log w' = y_log w ++ YBegin c :: evs ++ [YRet c r] /\ yeffect ty b c evs /\
     yanswer ty Max b (ybooked ty Max (y_log w ++ YBegin c :: evs)) c r).
Proof.
  intros ty Max upd disc w f c T HU HD R. cbv zeta. apply (idle_run ty Max T upd disc f w c).
  - destruct c; try exact I; assumption.
  - eapply reaches_ok; eassumption.
Qed.

(** An observable that ends first: each observed it goes through is disconnected, once and in
    order, and then ends without harm. *)
Lemma end_all ty Max upd disc (T : forall s, ity_ok (ty s)) f os : forall w, yok ty Max w -> NoDup os ->
  (forall o, In o os -> obd_at (ybooked ty Max (y_log w)) o <> None) ->
  exists w', yrun_all ty Max upd disc (S f) w (map YObsEnd os) = YOk w' /\
    y_log w' = y_log w ++ flat_map (fun o => [YBegin (YObsEnd o); YRet (YObsEnd o) RUnit]) os /\
    obl_at (ybooked ty Max (y_log w')) = obl_at (ybooked ty Max (y_log w)) /\
    forall a, obd_at (ybooked ty Max (y_log w')) a = if in_dec Pos.eq_dec a os then None else obd_at (ybooked ty Max (y_log w)) a.
Proof.
  induction os as [|o os IH]; intros w K ND AL; cbn [map yrun_all flat_map].
  { exists w. rewrite app_nil_r. split; [reflexivity|]. split; [reflexivity|]. split; reflexivity. }
  inversion ND as [|? ? NI ND']; subst.
  destruct (end_run ty Max T upd disc f w o (proj1 K) (AL o (or_introl eq_refl))) as (w1 & R1 & _ & L1 & O1 & D1).
  rewrite R1. cbn [ybind].
  destruct (IH w1 (run_ok ty Max T upd disc _ _ _ _ K R1) ND') as (w2 & R2 & L2 & O2 & D2).
  { intros a Ha. rewrite D1. destruct (Pos.eq_dec a o) as [->|]; [contradiction|]. apply AL. right. exact Ha. }
  exists w2. split; [exact R2|]. split; [rewrite L2, L1, <- app_assoc; reflexivity|]. split; [congruence|].
  intros a. rewrite D2, D1. destruct (in_dec Pos.eq_dec a os) as [H|H]; destruct (in_dec Pos.eq_dec a (o :: os)) as [H'|H'].
  - reflexivity.
  - exfalso. apply H'. right. exact H.
  - destruct H' as [->|H']; [|contradiction]. destruct (Pos.eq_dec a a); [reflexivity|congruence].
  - destruct (Pos.eq_dec a o) as [->|]; [|reflexivity]. exfalso. apply H'. left. reflexivity.
Qed.

Theorem C113_observable_ends_first : forall ty Max upd disc w f s x os, (forall s, ity_ok (ty s)) ->
  idle_disc disc -> yreaches ty Max upd disc w ->
  obl_at (ybooked ty Max (y_log w)) s = Some x ->
  (forall o, In o (e_regs x) -> In o os) -> NoDup os -> (forall o, In o os -> obd_at (ybooked ty Max (y_log w)) o <> None) ->
  exists w', yrun_all ty Max upd disc (S f) w (YEnd s :: map YObsEnd os) = YOk w' /\
    y_log w' = y_log w ++ YBegin (YEnd s) :: map (fun o => YDisc s o) (e_regs x) ++ [YRet (YEnd s) RUnit] ++
               flat_map (fun o => [YBegin (YObsEnd o); YRet (YObsEnd o) RUnit]) os /\
    obl_at (ybooked ty Max (y_log w')) s = None /\
    (forall o, In o os -> obd_at (ybooked ty Max (y_log w')) o = None).
Proof.
  intros ty Max upd disc w f s x os T HD R E IN ND AL. pose proof (reaches_ok _ _ _ _ _ T R) as K.
  destruct (idle_run ty Max T upd disc f w (YEnd s) HD K) as [[B _]|(_ & w1 & evs & r & R1 & L1 & EV & AN)].
  { exfalso. cbn [yblocked] in B. unfold blocked in B. rewrite E in B. destruct B as (o & H1 & H2). exact (AL o (IN o H1) H2). }
  cbn [yeffect] in EV. destruct EV as (x' & E' & ->). rewrite E in E'. inversion E'; subst x'. cbn [yanswer] in AN. subst r.
  assert (BK : obl_at (ybooked ty Max (y_log w1)) s = None /\ obd_at (ybooked ty Max (y_log w1)) = obd_at (ybooked ty Max (y_log w))).
  { rewrite L1. rewrite ybooked_app. cbn [fold_left]. rewrite fold_left_app. cbn [fold_left].
    assert (G : forall l b, obl_at (fold_left (ybook_step ty Max) (map (fun o => YDisc s o) l) b) = obl_at b /\
                            obd_at (fold_left (ybook_step ty Max) (map (fun o => YDisc s o) l) b) = obd_at b).
    { induction l as [|o l IH]; intros b; [split; reflexivity|]. cbn [map fold_left].
      destruct (IH (ybook_step ty Max b (YDisc s o))) as [G1 G2]. rewrite G1, G2. split; reflexivity. }
    destruct (G (e_regs x) (ybook_step ty Max (ybooked ty Max (y_log w)) (YBegin (YEnd s)))) as [G1 G2].
    set (b1 := fold_left _ (map _ _) _) in *. cbn [ybook_step obl_at obd_at]. split; [|exact G2].
    unfold yset. destruct (Pos.eq_dec s s); [reflexivity|congruence]. }
  destruct BK as [BK1 BK2].
  destruct (end_all ty Max upd disc T f os w1 (run_ok ty Max T upd disc _ _ _ _ K R1) ND) as (w2 & R2 & L2 & O2 & D2).
  { intros o Ho. rewrite BK2. apply AL, Ho. }
  exists w2. cbn [yrun_all]. rewrite R1. cbn [ybind]. split; [exact R2|].
  split; [rewrite L2, L1, <- app_assoc; cbn [app]; rewrite <- !app_assoc; reflexivity|].
  split; [rewrite O2; exact BK1|]. intros o Ho. rewrite D2. destruct (in_dec Pos.eq_dec o os); [reflexivity|contradiction].
Qed.

Lemma ended_listed ty Max upd disc w f s x o c : (forall s, ity_ok (ty s)) ->
  idle_update upd -> idle_disc disc -> yok ty Max w ->
  obl_at (ybooked ty Max (y_log w)) s = Some x -> In o (e_regs x) -> obd_at (ybooked ty Max (y_log w)) o <> None ->
  goes_through s c ->
  exists log, yrun_all ty Max upd disc (S f) w [YObsEnd o; c] = YUB log.
Proof.
  intros T HU HD K E HI AL GT.
  destruct (end_run ty Max T upd disc f w o (proj1 K) AL) as (w1 & R1 & _ & L1 & O1 & D1).
  pose proof (run_ok ty Max T upd disc _ _ _ _ K R1) as K1. cbn [yrun_all]. rewrite R1. cbn [ybind].
  assert (BL : blocked (ybooked ty Max (y_log w1)) s).
  { unfold blocked. rewrite O1, E. exists o. split; [exact HI|]. rewrite D1. destruct (Pos.eq_dec o o); congruence. }
  destruct (idle_run ty Max T upd disc f w1 c) as [[_ (log & EX)]|(NB & _)].
  - destruct c; try exact I; assumption.
  - exact K1.
  - rewrite EX. exists log. reflexivity.
  - exfalso. apply NB. destruct c; cbn [goes_through] in GT; try contradiction; subst; cbn [yblocked]; auto.
Qed.

(** An observed that ends without having been removed makes the next call that goes through
    the observeds of its observable undefined. *)
Theorem C114_ended_while_listed : forall ty Max upd disc w f s x o c, (forall s, ity_ok (ty s)) ->
  idle_update upd -> idle_disc disc -> yreaches ty Max upd disc w ->
  obl_at (ybooked ty Max (y_log w)) s = Some x -> In o (e_regs x) -> obd_at (ybooked ty Max (y_log w)) o <> None ->
  goes_through s c ->
  exists log, yrun_all ty Max upd disc (S f) w [YObsEnd o; c] = YUB log.
Proof.
  intros ty Max upd disc w f s x o c T HU HD R. apply ended_listed; try assumption. exact (reaches_ok _ _ _ _ _ T R).
Qed.

(** With an observable without a limit it does so even after it was removed, if it is the
    last one listed ... *)
Theorem C114_vector_removed_then_ended_refuted : forall ty Max upd disc w f s x l o c, (forall s, ity_ok (ty s)) ->
  idle_update upd -> idle_disc disc -> yreaches ty Max upd disc w -> Max s = 0 ->
  obl_at (ybooked ty Max (y_log w)) s = Some x -> e_regs x = l ++ [o] -> obd_at (ybooked ty Max (y_log w)) o <> None ->
  goes_through s c ->
  exists w1 log, yrun ty Max upd disc (S f) w (YRemove s o) = YOk w1 /\
    y_log w1 = y_log w ++ [YBegin (YRemove s o); YRet (YRemove s o) (RErr ok)] /\
    yrun_all ty Max upd disc (S f) w1 [YObsEnd o; c] = YUB log.
Proof.
  intros ty Max upd disc w f s x l o c T HU HD R M0 E ER AL GT. pose proof (reaches_ok _ _ _ _ _ T R) as K.
  destruct (remove_run ty Max T upd disc f w s o x (proj1 K) E AL) as (w1 & R1 & _ & L1 & D1 & O1).
  { rewrite ER. apply in_or_app. right. left. reflexivity. }
  unfold vector in O1. rewrite M0 in O1. change (0 =? 0) with true in O1. cbv iota in O1.
  destruct (ended_listed ty Max upd disc w1 f s _ o c T HU HD (run_ok ty Max T upd disc _ _ _ _ K R1) O1) as (log & EX).
  - cbn [e_regs]. rewrite ER. exact (last_stays ty Max T upd disc o l).
  - rewrite D1. exact AL.
  - exact GT.
  - exists w1, log. split; [exact R1|]. split; [exact L1|exact EX].
Qed.

(** ... whereas with a fixed capacity an observed that was removed may end, and the others are
    told once each, in order. *)
Theorem C114_array_removed_then_ended : forall ty Max upd disc w f s x o n, (forall s, ity_ok (ty s)) ->
  idle_update upd -> yreaches ty Max upd disc w -> Max s <> 0 ->
  obl_at (ybooked ty Max (y_log w)) s = Some x -> In o (e_regs x) ->
  (forall a, In a (e_regs x) -> obd_at (ybooked ty Max (y_log w)) a <> None) ->
  exists w', yrun_all ty Max upd disc (S f) w [YRemove s o; YObsEnd o; YNotify s n] = YOk w' /\
    y_log w' = y_log w ++ [YBegin (YRemove s o); YRet (YRemove s o) (RErr ok); YBegin (YObsEnd o); YRet (YObsEnd o) RUnit;
                           YBegin (YNotify s n)] ++
      map (fun a => YStore s a (conv (ty s) n)) (without o (e_regs x)) ++ [YRet (YNotify s n) (RErr ok)].
Proof.
  intros ty Max upd disc w f s x o n T HU R MN E HI AL. pose proof (reaches_ok _ _ _ _ _ T R) as K.
  destruct (remove_run ty Max T upd disc f w s o x (proj1 K) E (AL o HI) HI) as (w1 & R1 & I1 & L1 & D1 & O1).
  pose proof (run_ok ty Max T upd disc _ _ _ _ K R1) as K1.
  unfold vector in O1. destruct (Z.eqb_spec (Max s) 0) as [|_]; [contradiction|].
  destruct (end_run ty Max T upd disc f w1 o I1 ltac:(rewrite D1; apply AL, HI)) as (w2 & R2 & I2 & L2 & O2 & D2).
  pose proof (run_ok ty Max T upd disc _ _ _ _ K1 R2) as K2. rewrite <- O2 in O1.
  destruct (idle_run ty Max T upd disc f w2 (YNotify s n) HU K2) as [[B _]|(_ & w3 & evs & r & R3 & L3 & EV & AN)].
  { exfalso. cbn [yblocked] in B. unfold blocked in B. rewrite O1 in B. destruct B as (a & H1 & H2). cbn [e_regs] in H1.
    apply in_remove in H1. destruct H1 as [H1 NE]. rewrite D2, D1 in H2. destruct (Pos.eq_dec a o); [contradiction|]. exact (AL a H1 H2). }
  cbn [yeffect] in EV. destruct EV as (x' & E' & ->). rewrite O1 in E'. inversion E'; subst x'. cbn [yanswer] in AN. subst r.
  exists w3. cbn [yrun_all]. rewrite R1. cbn [ybind]. rewrite R2. cbn [ybind]. rewrite R3. cbn [ybind]. split; [reflexivity|].
  rewrite L3, L2, L1. cbn [e_regs]. rewrite <- !app_assoc. reflexivity.
Qed.

(** Another observed constructed at the address of one that ended while listed is told in its
    place although it was never added. *)
Theorem C114_same_address_refuted : forall ty Max upd disc w f s x o n, (forall s, ity_ok (ty s)) ->
  idle_update upd -> yreaches ty Max upd disc w ->
  obl_at (ybooked ty Max (y_log w)) s = Some x -> In o (e_regs x) ->
  (forall a, In a (e_regs x) -> obd_at (ybooked ty Max (y_log w)) a <> None) ->
  exists w', yrun_all ty Max upd disc (S f) w [YObsEnd o; YObs o; YNotify s n] = YOk w' /\
    y_log w' = y_log w ++ [YBegin (YObsEnd o); YRet (YObsEnd o) RUnit; YBegin (YObs o); YRet (YObs o) RUnit;
                           YBegin (YNotify s n)] ++
      map (fun a => YStore s a (conv (ty s) n)) (e_regs x) ++ [YRet (YNotify s n) (RErr ok)].
Proof.
  intros ty Max upd disc w f s x o n T HU R E HI AL. pose proof (reaches_ok _ _ _ _ _ T R) as K.
  destruct (end_run ty Max T upd disc f w o (proj1 K) (AL o HI)) as (w1 & R1 & I1 & L1 & O1 & D1).
  pose proof (run_ok ty Max T upd disc _ _ _ _ K R1) as K1.
  destruct (birth_run ty Max T upd disc f w1 o I1) as (w2 & R2 & I2 & L2 & O2 & D2).
  { rewrite D1. destruct (Pos.eq_dec o o); congruence. }
  pose proof (run_ok ty Max T upd disc _ _ _ _ K1 R2) as K2.
  destruct (idle_run ty Max T upd disc f w2 (YNotify s n) HU K2) as [[B _]|(_ & w3 & evs & r & R3 & L3 & EV & AN)].
  { exfalso. cbn [yblocked] in B. unfold blocked in B. rewrite O2, O1, E in B. destruct B as (a & H1 & H2).
    rewrite D2, D1 in H2. destruct (Pos.eq_dec a o); [discriminate|]. exact (AL a H1 H2). }
  cbn [yeffect] in EV. destruct EV as (x' & E' & ->). rewrite O2, O1, E in E'. inversion E'; subst x'. cbn [yanswer] in AN. subst r.
  exists w3. cbn [yrun_all]. rewrite R1. cbn [ybind]. rewrite R2. cbn [ybind]. rewrite R3. cbn [ybind]. split; [reflexivity|].
  rewrite L3, L2, L1. rewrite <- !app_assoc. reflexivity.
Qed.

(** Removing an observed and ending it is not enough in a callback of the same notification:
    the notification still goes to it. *)
Theorem C114_removed_in_callback_refuted : forall ty Max upd disc w f s n x a m o, (forall s, ity_ok (ty s)) ->
  yreaches ty Max upd disc w -> Max s <> 0 ->
  obl_at (ybooked ty Max (y_log w)) s = Some x -> e_regs x = a :: m ++ [o] ->
  (forall b, In b (e_regs x) -> obd_at (ybooked ty Max (y_log w)) b <> None) ->
  (forall log v, upd log a v = YDo (YRemove s o) (fun _ => YDo (YObsEnd o) (fun _ => YReturn))) ->
  (forall log b v, b <> a -> upd log b v = YReturn) ->
  exists log, yrun ty Max upd disc (S (S f)) w (YNotify s n) = YUB log.
Proof.
  intros ty Max upd disc w f s n x a m o T R MN E ER AL UA UO.
  assert (ND : NoDup (e_regs x)) by (apply (C113_listed_once ty Max upd disc w s x T R MN E)).
  eapply (removed_in_callback ty Max T upd disc f w s n x a m o); try eassumption.
  - apply (reaches_ok _ _ _ _ _ T R).
  - unfold vector. apply Z.eqb_neq, MN.
Qed.

(** An observable ended by a callback of its own notification: undefined. *)
Theorem C114_ends_in_callback_refuted : forall ty Max upd disc w f s n x a m, (forall s, ity_ok (ty s)) ->
  idle_disc disc -> yreaches ty Max upd disc w ->
  obl_at (ybooked ty Max (y_log w)) s = Some x -> e_regs x = a :: m ->
  (forall b, In b (e_regs x) -> obd_at (ybooked ty Max (y_log w)) b <> None) ->
  (forall log v, upd log a v = YDo (YEnd s) (fun _ => YReturn)) ->
  exists log, yrun ty Max upd disc (S (S f)) w (YNotify s n) = YUB log.
Proof.
  intros ty Max upd disc w f s n x a m T HD R E ER AL UA.
  eapply (ends_in_callback ty Max T upd disc f w s n x a m); try eassumption. apply (reaches_ok _ _ _ _ _ T R).
Qed.

(** Examples: int observables, 10 with room for 5 and 20 without limit; observeds 1, 2, 3. *)
Definition ints (_ : addr) : ity := {| i_bits := 32; i_signed := true |}.
Definition room (s : addr) : Z := if Pos.eqb s 20 then 0 else 5.
Definition no_upd : list yev -> addr -> Z -> ybody := fun _ _ _ => YReturn.
Definition no_dis : list yev -> addr -> ybody := fun _ _ => YReturn.
Definition setting : list ycall :=
  [YObs 1; YObs 2; YObs 3; YMake 10; YMake 20; YAdd 10 1; YAdd 10 2; YAdd 10 3; YAdd 20 1; YAdd 20 2].
Definition yat upd disc (l : list ycall) : yworld :=
  match yrun_all ints room upd disc 5 yfresh l with YOk w => w | _ => yfresh end.
Lemma yat_reaches upd disc l : match yrun_all ints room upd disc 5 yfresh l with YOk _ => true | _ => false end = true ->
  yreaches ints room upd disc (yat upd disc l).
Proof.
  unfold yat. destruct (yrun_all ints room upd disc 5 yfresh l) as [w| |] eqn:E; intros H; try discriminate. exists 5%nat, l. exact E.
Qed.
Lemma ints_ok : forall s, ity_ok (ints s).
Proof. intros s. right. right. left. reflexivity. Qed.
Definition entry_of (w : yworld) (s : addr) : option entry := obl_at (ybooked ints room (y_log w)) s.
Definition obs_of (w : yworld) (o : addr) : option Z := obd_at (ybooked ints room (y_log w)) o.
Lemma not_made ty Max log s : (forall r, ~ In (YRet (YMake s) r) log) -> obl_at (ybooked ty Max log) s = None.
Proof.
  induction log as [|e log IH] using rev_ind; intros H; [reflexivity|]. rewrite ybooked_snoc.
  specialize (IH (fun r HI => H r (in_or_app _ _ _ (or_introl HI)))).
  assert (HE : forall r, e <> YRet (YMake s) r) by (intros r ->; apply (H r), in_or_app; right; left; reflexivity).
  assert (G : forall h f, on_entry (ybooked ty Max log) h f s = None).
  { intros h f. unfold on_entry. destruct (obl_at (ybooked ty Max log) h) as [y|] eqn:EY; [|exact IH]. unfold yset.
    destruct (Pos.eq_dec s h) as [->|]; [congruence|exact IH]. }
  destruct e as [c|h op|h o v|h o|c r]; cbn [ybook_step obl_at]; try apply G; try exact IH.
  destruct c as [h|h|o|o|h o|h o|h|h n|h op|h|o]; cbn [ybook_step obl_at]; try exact IH; try apply G.
  1, 2: unfold yset; destruct (Pos.eq_dec s h) as [->|]; [|exact IH].
  - exfalso. exact (HE r eq_refl).
  - reflexivity.
  - destruct r as [e| |]; cbn [obl_at]; try exact IH; destruct e; cbn [obl_at]; try exact IH; apply G.
  - destruct r as [e| |]; cbn [obl_at]; try exact IH; destruct e; cbn [obl_at]; try exact IH; apply G.
Qed.

(** Observed 1, when told, takes 3 out of observable 10 and reads it; observed 2 ends 20: once
    that goes well, the second time 20 does not exist. *)
Definition busy_upd : list yev -> addr -> Z -> ybody :=
  fun _ o v => if Pos.eqb o 1 then YDo (YRemove 10 3) (fun _ => YDo (YValue 10) (fun _ => YReturn))
               else if Pos.eqb o 2 then YDo (YEnd 20) (fun _ => YReturn) else YReturn.
Definition busy_log : list yev :=
  match yrun_all ints room busy_upd no_dis 5 yfresh (setting ++ [YOp 10 PostInc; YNotify 10 4]) with YUB l => l | _ => [] end.
Example C113_ex_busy :
  yrun_all ints room busy_upd no_dis 5 yfresh (setting ++ [YOp 10 PostInc; YNotify 10 4]) = YUB busy_log /\
  skipn 20 busy_log =
    [YBegin (YOp 10 PostInc); YApplied 10 PostInc;
       YStore 10 1 0; YBegin (YRemove 10 3); YRet (YRemove 10 3) (RErr ok); YBegin (YValue 10); YRet (YValue 10) (RVal 1);
       YStore 10 2 0; YBegin (YEnd 20); YDisc 20 1; YDisc 20 2; YRet (YEnd 20) RUnit;
       YStore 10 3 0; YRet (YOp 10 PostInc) (RVal 0);
     YBegin (YNotify 10 4);
       YStore 10 1 4; YBegin (YRemove 10 3); YRet (YRemove 10 3) (RErr not_found); YBegin (YValue 10); YRet (YValue 10) (RVal 1);
       YStore 10 2 4; YBegin (YEnd 20)] /\
  ystuck ints room busy_log.
Proof.
  assert (E : yrun_all ints room busy_upd no_dis 5 yfresh (setting ++ [YOp 10 PostInc; YNotify 10 4]) = YUB busy_log)
    by (vm_compute; reflexivity).
  split; [exact E|]. split; [vm_compute; reflexivity|]. exact (C113_undefined_means _ _ _ _ _ _ _ ints_ok E).
Qed.

(** Observed 3 is removed, ends outside callbacks, and then an observable that does not exist
    is read. *)
Definition tidy_log : list yev :=
  match yrun_all ints room no_upd no_dis 5 yfresh [YObs 3; YMake 10; YAdd 10 3; YRemove 10 3; YObsEnd 3; YNotify 10 4; YValue 20]
  with YUB l => l | _ => [] end.
Example C113_ex_orderly :
  yrun_all ints room no_upd no_dis 5 yfresh [YObs 3; YMake 10; YAdd 10 3; YRemove 10 3; YObsEnd 3; YNotify 10 4; YValue 20] = YUB tidy_log /\
  In (YRet (YObsEnd 3) RUnit) tidy_log /\ orderly ints room tidy_log.
Proof.
  split; [vm_compute; reflexivity|]. split; [vm_compute; do 9 right; left; reflexivity|]. intros before o r after E. vm_compute in E.
  do 9 (destruct before as [|? before]; [discriminate E|]; injection E as <- E).
  destruct before as [|? before].
  - injection E as <- <- <-. split; [reflexivity|]. intros s x EX.
    destruct (Pos.eq_dec s 10) as [->|N].
    + vm_compute in EX. injection EX as <-. intros [].
    + rewrite not_made in EX; [discriminate|]. intros r HI. repeat (destruct HI as [HI|HI]; [congruence|]). destruct HI.
  - injection E as <- E. do 3 (destruct before as [|? before]; [discriminate E|]; injection E as <- E).
    destruct before; discriminate E.
Qed.

(** With idle callbacks. *)
Example C113_ex_idle :
  idle_update no_upd /\ idle_disc no_dis /\ yreaches ints room no_upd no_dis (yat no_upd no_dis setting) /\
  entry_of (yat no_upd no_dis setting) 10 = Some (Entry 0 [1; 2; 3]%positive [] 7) /\
  entry_of (yat no_upd no_dis setting) 20 = Some (Entry 0 [1; 2]%positive [] 19) /\
  (forall o, In o [1; 2; 3]%positive -> obs_of (yat no_upd no_dis setting) o = Some 0).
Proof.
  split; [intros log o n; reflexivity|]. split; [intros log o; reflexivity|]. split; [apply yat_reaches; vm_compute; reflexivity|].
  split; [vm_compute; reflexivity|]. split; [vm_compute; reflexivity|]. intros o [<-|[<-|[<-|[]]]]; vm_compute; reflexivity.
Qed.
(** An observed added twice, and one too many for a room of 2. *)
Definition room2 (s : addr) : Z := 2.
Example C113_ex_once : exists w,
  yrun_all ints room2 no_upd no_dis 5 yfresh [YObs 1; YObs 2; YObs 3; YMake 10; YAdd 10 1; YAdd 10 1; YAdd 10 2; YAdd 10 3] = YOk w /\
  yreaches ints room2 no_upd no_dis w /\
  obl_at (ybooked ints room2 (y_log w)) 10%positive = Some (Entry 0 [1; 2]%positive [] 7) /\
  In (YRet (YAdd 10 1) (RErr already_contains)) (y_log w) /\ In (YRet (YAdd 10 3) (RErr list_is_full)) (y_log w).
Proof.
  eexists. split; [vm_compute; reflexivity|]. split; [|split; [vm_compute; reflexivity|split; vm_compute; tauto]].
  exists 5%nat, [YObs 1; YObs 2; YObs 3; YMake 10; YAdd 10 1; YAdd 10 1; YAdd 10 2; YAdd 10 3]. vm_compute. reflexivity.
Qed.
Example C113_ex_ends_first : exists w',
  yrun_all ints room no_upd no_dis 5 (yat no_upd no_dis setting) [YEnd 10; YObsEnd 1; YObsEnd 2; YObsEnd 3] = YOk w' /\
  skipn 20 (y_log w') = [YBegin (YEnd 10); YDisc 10 1; YDisc 10 2; YDisc 10 3; YRet (YEnd 10) RUnit;
    YBegin (YObsEnd 1); YRet (YObsEnd 1) RUnit; YBegin (YObsEnd 2); YRet (YObsEnd 2) RUnit; YBegin (YObsEnd 3); YRet (YObsEnd 3) RUnit].
Proof. vm_compute. eexists. split; reflexivity. Qed.

(** Observed 2, the last one of both 10 and 20 but for 3 in 10. *)
Example C114_ex_ended :
  (exists log, yrun_all ints room no_upd no_dis 5 (yat no_upd no_dis setting) [YObsEnd 2; YOp 10 (Assign 5)] = YUB log /\
     skipn 20 log = [YBegin (YObsEnd 2); YRet (YObsEnd 2) RUnit; YBegin (YOp 10 (Assign 5)); YApplied 10 (Assign 5); YStore 10 1 5]) /\
  (exists log, yrun_all ints room no_upd no_dis 5 (yat no_upd no_dis setting) [YRemove 20 2; YRemove 10 2; YObsEnd 2; YNotify 20 5] = YUB log) /\
  (exists w, yrun_all ints room no_upd no_dis 5 (yat no_upd no_dis setting) [YRemove 10 2; YRemove 20 2; YObsEnd 2; YNotify 10 5] = YOk w).
Proof. vm_compute. split; [eexists; split; reflexivity|]. split; eexists; reflexivity. Qed.
Example C114_ex_same_address : exists w,
  yrun_all ints room no_upd no_dis 5 (yat no_upd no_dis setting) [YObsEnd 2; YObs 2; YNotify 10 6; YHeld 2] = YOk w /\
  skipn 24 (y_log w) = [YBegin (YNotify 10 6); YStore 10 1 6; YStore 10 2 6; YStore 10 3 6; YRet (YNotify 10 6) (RErr ok);
                        YBegin (YHeld 2); YRet (YHeld 2) (RVal 6)].
Proof. vm_compute. eexists. split; reflexivity. Qed.

(** Observed 1, when told, removes 3 from observable 10 and ends it. *)
Definition rash_upd : list yev -> addr -> Z -> ybody :=
  fun _ o v => if Pos.eqb o 1 then YDo (YRemove 10 3) (fun _ => YDo (YObsEnd 3) (fun _ => YReturn)) else YReturn.
(** Observed 1, when told, ends observable 10. *)
Definition ending_upd : list yev -> addr -> Z -> ybody :=
  fun _ o v => if Pos.eqb o 1 then YDo (YEnd 10) (fun _ => YReturn) else YReturn.
Example C114_ex_rash :
  yreaches ints room rash_upd no_dis (yat rash_upd no_dis setting) /\
  entry_of (yat rash_upd no_dis setting) 10 = Some (Entry 0 (1 :: [2] ++ [3])%positive [] 7) /\
  (forall b, In b (1 :: [2] ++ [3])%positive -> obs_of (yat rash_upd no_dis setting) b <> None) /\
  (forall log v, rash_upd log 1%positive v = YDo (YRemove 10 3) (fun _ => YDo (YObsEnd 3) (fun _ => YReturn))) /\
  (forall log b v, b <> 1%positive -> rash_upd log b v = YReturn) /\
  yrun ints room rash_upd no_dis 3 (yat rash_upd no_dis setting) (YNotify 10 8) =
    YUB (y_log (yat rash_upd no_dis setting) ++
      [YBegin (YNotify 10 8); YStore 10 1 8; YBegin (YRemove 10 3); YRet (YRemove 10 3) (RErr ok);
       YBegin (YObsEnd 3); YRet (YObsEnd 3) RUnit; YStore 10 2 8]).
Proof.
  split; [apply yat_reaches; vm_compute; reflexivity|]. split; [vm_compute; reflexivity|].
  split; [intros o [<-|[<-|[<-|[]]]]; vm_compute; discriminate|]. split; [reflexivity|].
  split; [intros log b v N; unfold rash_upd; destruct (Pos.eqb_spec b 1); [contradiction|reflexivity]|]. vm_compute. reflexivity.
Qed.
Example C114_ex_ending :
  yreaches ints room ending_upd no_dis (yat ending_upd no_dis setting) /\
  entry_of (yat ending_upd no_dis setting) 10 = Some (Entry 0 [1; 2; 3]%positive [] 7) /\
  (forall log v, ending_upd log 1%positive v = YDo (YEnd 10) (fun _ => YReturn)) /\
  yrun ints room ending_upd no_dis 3 (yat ending_upd no_dis setting) (YNotify 10 8) =
    YUB (y_log (yat ending_upd no_dis setting) ++
      [YBegin (YNotify 10 8); YStore 10 1 8; YBegin (YEnd 10); YDisc 10 1; YDisc 10 2; YDisc 10 3; YRet (YEnd 10) RUnit]).
Proof.
  split; [apply yat_reaches; vm_compute; reflexivity|]. split; [vm_compute; reflexivity|].
  split; [reflexivity|]. vm_compute. reflexivity.
Qed.

Print Assumptions C113_undefined_means.
Print Assumptions C113_goes_on.
Print Assumptions C113_only_live.
Print Assumptions C113_listed_once.
Print Assumptions C113_orderly.
Print Assumptions C113_idle_exactly.
Print Assumptions C113_observable_ends_first.
Print Assumptions C114_ended_while_listed.
Print Assumptions C114_vector_removed_then_ended_refuted.
Print Assumptions C114_array_removed_then_ended.
Print Assumptions C114_same_address_refuted.
Print Assumptions C114_removed_in_callback_refuted.
Print Assumptions C114_ends_in_callback_refuted.
