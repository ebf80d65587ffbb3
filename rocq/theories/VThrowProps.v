(** C139: value observables whose observeds' functions, or disconnect(), throw. *)
From Verif Require Export VThrowProofs2.

Lemma zreaches_ok ty Max upd disc w : (forall s, ity_ok (ty s)) -> zreaches ty Max upd disc w -> yok ty Max w.
Proof.
  intros T (fuel & calls & E). pose proof (run_all_rel ty Max upd disc YReturn fuel calls yfresh) as R. rewrite E in R. cbn [rel] in R.
  pose proof (yrun_all_safe ty Max T (instead_upd YReturn upd) (instead_disc YReturn disc) fuel calls yfresh (yok_fresh ty Max)) as H.
  rewrite R in H. exact H.
Qed.

(** The program is ended exactly when a callback throws, at once: as long as it is not ended,
    everything is as if [h] had been written in place of the throws, whatever [h] is; and where
    it is ended, [h] would have been done next. *)
Theorem C139_ends_at_throw ty Max upd disc fuel calls :
  match zrun_all ty Max upd disc fuel yfresh calls with
  | ZOk w => forall h, yrun_all ty Max (instead_upd h upd) (instead_disc h disc) fuel yfresh calls = YOk w
  | ZUB log => forall h, yrun_all ty Max (instead_upd h upd) (instead_disc h disc) fuel yfresh calls = YUB log
  | ZFuel => forall h, yrun_all ty Max (instead_upd h upd) (instead_disc h disc) fuel yfresh calls = YFuel
  | ZEnd o log => forall c k,
      let r := yrun_all ty Max (instead_upd (YDo c k) upd) (instead_disc (YDo c k) disc) fuel yfresh calls in
      r = YFuel \/ exists more, ylog r = Some (log ++ YBegin c :: more)
  end.
Proof.
  destruct (zrun_all ty Max upd disc fuel yfresh calls) as [w|l|o l|] eqn:E.
  1,2,4: intros h; pose proof (run_all_rel ty Max upd disc h fuel calls yfresh) as R; rewrite E in R; exact R.
  intros c k. pose proof (run_all_rel ty Max upd disc (YDo c k) fuel calls yfresh) as R. rewrite E in R. cbn [rel] in R. cbv zeta.
  destruct (yrun_all _ _ _ _ _ _ _) as [a|l'|]; [right|right|left; reflexivity]; destruct R as (_ & H); destruct (H c k eq_refl) as (m & EM);
    exists m; cbn [ylog]; rewrite <- EM; reflexivity.
Qed.

(** Functions that do not use the observables: an operator ends the program exactly when the
    function of a listed observed throws for the published value.  The value has been changed
    then, the observeds listed before have been told, and this one holds the value; those
    listed behind it have not been told. *)
Theorem C139_update ty Max bu bd w f s x op : (forall s, ity_ok (ty s)) ->
  let b := ybooked ty Max (y_log w) in
  let run := zrun ty Max (plain_upd bu) (plain_disc bd) (S f) w (YOp s op) in
  zreaches ty Max (plain_upd bu) (plain_disc bd) w ->
  obl_at b s = Some x -> (forall o, In o (e_regs x) -> obd_at b o <> None) -> ~ too_large ty b s op ->
  exists v, publishes ty s (e_val x) op v /\
    (Forall (fun o => bu o v = false) (e_regs x) -> exists w', run = ZOk w' /\
       y_log w' = y_log w ++ YBegin (YOp s op) :: YApplied s op :: map (fun o => YStore s o v) (e_regs x) ++ [YRet (YOp s op) (RVal v)]) /\
    (forall pre o post, e_regs x = pre ++ o :: post -> Forall (fun o => bu o v = false) pre -> bu o v = true ->
       run = ZEnd o (y_log w ++ YBegin (YOp s op) :: YApplied s op :: map (fun o => YStore s o v) (pre ++ [o]))).
Proof.
  intros T b run R E AL NL. assert (NB : ~ yblocked ty b (YOp s op)).
  { cbn [yblocked]. intros [B|B]; [|contradiction]. unfold blocked in B. rewrite E in B. destruct B as (o & H1 & H2). exact (AL o H1 H2). }
  destruct (plain_run ty Max bu bd T f w (YOp s op) (zreaches_ok _ _ _ _ _ T R) NB) as (evs & r & EV & AN & H1 & H2).
  cbn [yeffect] in EV. destruct EV as (x' & v & E' & P & ->). fold b in E'. rewrite E in E'. injection E' as <-.
  cbn [yanswer] in AN. destruct AN as (x' & v' & E' & P' & ->). fold b in E'. rewrite E in E'. injection E' as <-.
  assert (v' = v) by (unfold publishes in P, P'; destruct op; congruence). subst v'.
  exists v. split; [exact P|]. split.
  - intros F. destruct H1 as (w' & RW & EL).
    { constructor; [reflexivity|]. apply Forall_map. eapply Forall_impl; [|exact F]. intros o B. unfold good, bad_ev. rewrite B. reflexivity. }
    exists w'. split; [exact RW|]. rewrite EL. reflexivity.
  - intros pre o post EP F B. unfold run.
    rewrite (H2 (YApplied s op :: map (fun o => YStore s o v) pre) (YStore s o v) (map (fun o => YStore s o v) post) o).
    + rewrite map_app. reflexivity.
    + rewrite EP, map_app. reflexivity.
    + constructor; [reflexivity|]. apply Forall_map. eapply Forall_impl; [|exact F]. intros a B'. unfold good, bad_ev. rewrite B'. reflexivity.
    + unfold bad_ev. rewrite B. reflexivity.
Qed.
(** notify_observers: the same with the given value, and the observable's own value stays. *)
Theorem C139_notify ty Max bu bd w f s x n : (forall s, ity_ok (ty s)) ->
  let b := ybooked ty Max (y_log w) in
  let v := conv (ty s) n in
  let run := zrun ty Max (plain_upd bu) (plain_disc bd) (S f) w (YNotify s n) in
  zreaches ty Max (plain_upd bu) (plain_disc bd) w ->
  obl_at b s = Some x -> (forall o, In o (e_regs x) -> obd_at b o <> None) ->
  (Forall (fun o => bu o v = false) (e_regs x) -> exists w', run = ZOk w' /\
     y_log w' = y_log w ++ YBegin (YNotify s n) :: map (fun o => YStore s o v) (e_regs x) ++ [YRet (YNotify s n) (RErr ok)]) /\
  (forall pre o post, e_regs x = pre ++ o :: post -> Forall (fun o => bu o v = false) pre -> bu o v = true ->
     run = ZEnd o (y_log w ++ YBegin (YNotify s n) :: map (fun o => YStore s o v) (pre ++ [o]))).
Proof.
  intros T b v run R E AL. assert (NB : ~ yblocked ty b (YNotify s n)).
  { cbn [yblocked]. intros B. unfold blocked in B. rewrite E in B. destruct B as (o & H1 & H2). exact (AL o H1 H2). }
  destruct (plain_run ty Max bu bd T f w (YNotify s n) (zreaches_ok _ _ _ _ _ T R) NB) as (evs & r & EV & AN & H1 & H2).
  cbn [yeffect] in EV. destruct EV as (x' & E' & ->). fold b in E'. rewrite E in E'. injection E' as <-.
  cbn [yanswer] in AN. subst r. fold v in H1, H2. split.
  - intros F. apply H1. apply Forall_map. eapply Forall_impl; [|exact F]. intros o B. unfold good, bad_ev. rewrite B. reflexivity.
  - intros pre o post EP F B. unfold run.
    rewrite (H2 (map (fun o => YStore s o v) pre) (YStore s o v) (map (fun o => YStore s o v) post) o).
    + rewrite map_app. reflexivity.
    + rewrite EP, map_app. reflexivity.
    + apply Forall_map. eapply Forall_impl; [|exact F]. intros a B'. unfold good, bad_ev. rewrite B'. reflexivity.
    + unfold bad_ev. rewrite B. reflexivity.
Qed.
(** clear_observers and the destructor: exactly when disconnect() of a listed observed throws,
    after the observeds listed before it were disconnected. *)
Theorem C139_clear_or_end ty Max bu bd w f s x c : (forall s, ity_ok (ty s)) ->
  let b := ybooked ty Max (y_log w) in
  let run := zrun ty Max (plain_upd bu) (plain_disc bd) (S f) w c in
  zreaches ty Max (plain_upd bu) (plain_disc bd) w -> c = YClear s \/ c = YEnd s ->
  obl_at b s = Some x -> (forall o, In o (e_regs x) -> obd_at b o <> None) ->
  (Forall (fun o => bd o = false) (e_regs x) -> exists w', run = ZOk w' /\
     y_log w' = y_log w ++ YBegin c :: map (YDisc s) (e_regs x) ++ [YRet c RUnit]) /\
  (forall pre o post, e_regs x = pre ++ o :: post -> Forall (fun o => bd o = false) pre -> bd o = true ->
     run = ZEnd o (y_log w ++ YBegin c :: map (YDisc s) (pre ++ [o]))).
Proof.
  intros T b run R C E AL. assert (NB : ~ yblocked ty b c).
  { assert (~ blocked b s); [|destruct C as [-> | ->]; assumption].
    unfold blocked. rewrite E. intros (o & H1 & H2). exact (AL o H1 H2). }
  destruct (plain_run ty Max bu bd T f w c (zreaches_ok _ _ _ _ _ T R) NB) as (evs & r & EV & AN & H1 & H2).
  assert (EV' : evs = map (YDisc s) (e_regs x) /\ r = RUnit).
  { destruct C as [-> | ->]; cbn [yeffect yanswer] in *; destruct EV as (x' & E' & ->); fold b in E'; rewrite E in E'; injection E' as <-; auto. }
  destruct EV' as (-> & ->). split.
  - intros F. apply H1. apply Forall_map. eapply Forall_impl; [|exact F]. intros o B. unfold good, bad_ev. rewrite B. reflexivity.
  - intros pre o post EP F B. unfold run.
    rewrite (H2 (map (YDisc s) pre) (YDisc s o) (map (YDisc s) post) o).
    + rewrite map_app. reflexivity.
    + rewrite EP, map_app. reflexivity.
    + apply Forall_map. eapply Forall_impl; [|exact F]. intros a B'. unfold good, bad_ev. rewrite B'. reflexivity.
    + unfold bad_ev. rewrite B. reflexivity.
Qed.

(** ** Examples: int observables, 10 with room for 5 and 20 without limit; observed 2's function
    throws for 7, its disconnect always. *)
Definition zints (_ : addr) : ity := {| i_bits := 32; i_signed := true |}.
Definition zroom (s : addr) : Z := if Pos.eqb s 20 then 0 else 5.
Definition zbu (o : addr) (n : Z) : bool := Pos.eqb o 2 && (n =? 7).
Definition zbd (o : addr) : bool := Pos.eqb o 2.
Definition zsetting : list ycall :=
  [YObs 1; YObs 2; YObs 3; YMake 10; YMake 20; YAdd 10 1; YAdd 10 2; YAdd 10 3; YAdd 20 1; YAdd 20 2; YOp 10 (Assign 6)].
Definition zat : yworld :=
  match zrun_all zints zroom (plain_upd zbu) (plain_disc zbd) 5 yfresh zsetting with ZOk w => w | _ => yfresh end.
Definition zhist (x : zres yworld) : option addr * list yev :=
  match x with ZEnd o l => (Some o, l) | ZOk w => (None, y_log w) | ZUB l => (None, l) | ZFuel => (None, []) end.
(** The hypotheses hold, and ++x to 7 ends the program at observed 2, while x = 5 is told to all. *)
Example C139_ex :
  zreaches zints zroom (plain_upd zbu) (plain_disc zbd) zat /\
  option_map e_regs (obl_at (ybooked zints zroom (y_log zat)) 10) = Some [1; 2; 3]%positive /\
  option_map e_val (obl_at (ybooked zints zroom (y_log zat)) 10) = Some 6 /\
  option_map e_regs (obl_at (ybooked zints zroom (y_log zat)) 20) = Some [1; 2]%positive /\
  (forall o, In o [1; 2; 3]%positive -> obd_at (ybooked zints zroom (y_log zat)) o = Some 6) /\
  zhist (zrun zints zroom (plain_upd zbu) (plain_disc zbd) 1 zat (YOp 10 PreInc))
  = (Some 2%positive, y_log zat ++ [YBegin (YOp 10 PreInc); YApplied 10 PreInc; YStore 10 1 7; YStore 10 2 7]) /\
  zhist (zrun zints zroom (plain_upd zbu) (plain_disc zbd) 1 zat (YEnd 20))
  = (Some 2%positive, y_log zat ++ [YBegin (YEnd 20); YDisc 20 1; YDisc 20 2]).
Proof.
  split.
  { exists 5%nat, zsetting. unfold zat.
    assert (H : match zrun_all zints zroom (plain_upd zbu) (plain_disc zbd) 5 yfresh zsetting with ZOk _ => true | _ => false end = true) by (vm_compute; reflexivity).
    destruct (zrun_all zints zroom (plain_upd zbu) (plain_disc zbd) 5 yfresh zsetting); try discriminate. reflexivity. }
  split; [vm_compute; reflexivity|]. split; [vm_compute; reflexivity|]. split; [vm_compute; reflexivity|].
  split; [intros o [<-|[<-|[<-|[]]]]; vm_compute; reflexivity|]. split; vm_compute; reflexivity.
Qed.
(** A function that sets another observable, whose observed throws: the inner throw ends the
    program although the outer function would have gone on. *)
Definition nested_upd (log : list yev) (o : addr) (n : Z) : zbody :=
  if Pos.eqb o 1 then ZDo (YOp 20 (Assign (n + 1))) (fun _ => ZDo (YValue 20) (fun _ => ZReturn))
  else if n =? 8 then ZThrow else ZReturn.
Example C139_ex_nested :
  zhist (zrun_all zints zroom nested_upd (plain_disc zbd) 5 yfresh
           [YObs 1; YObs 2; YMake 10; YMake 20; YAdd 10 1; YAdd 20 2; YOp 10 (Assign 7)])
  = (Some 2%positive,
     [YBegin (YObs 1); YRet (YObs 1) RUnit; YBegin (YObs 2); YRet (YObs 2) RUnit;
      YBegin (YMake 10); YRet (YMake 10) RUnit; YBegin (YMake 20); YRet (YMake 20) RUnit;
      YBegin (YAdd 10 1); YRet (YAdd 10 1) (RErr ok); YBegin (YAdd 20 2); YRet (YAdd 20 2) (RErr ok);
      YBegin (YOp 10 (Assign 7)); YApplied 10 (Assign 7); YStore 10 1 7;
      YBegin (YOp 20 (Assign 8)); YApplied 20 (Assign 8); YStore 20 2 8]).
Proof. vm_compute. reflexivity. Qed.

Print Assumptions C139_ends_at_throw.
Print Assumptions C139_update.
Print Assumptions C139_notify.
Print Assumptions C139_clear_or_end.
