(** Callbacks that return at once; witnesses. *)
From Verif Require Export VLifeProofs3.
From Verif Require Import ObserverProofs1 ValuesProofs3.

Section Idle.
  Variable ty : addr -> ity.
  Variable Max : addr -> Z.
  Hypothesis T : forall s, ity_ok (ty s).
  Variable upd : list yev -> addr -> Z -> ybody.
  Variable disc : list yev -> addr -> ybody.
  Notation booked := (ybooked ty Max).
  Notation yinv := (yinv ty Max).
  Notation yok := (yok ty Max).
  Notation yrun := (yrun ty Max upd disc).

  Lemma idle_loop (enter : yworld -> addr -> yworld) (ev : addr -> yev) (cb : list yev -> addr -> ybody) step s x l r :
    (forall w o, y_cell (enter w o) = y_cell w) ->
    (forall w o, y_log (enter w o) = y_log w ++ [ev o]) ->
    (forall w o a, y_obs w o <> None -> (y_obs (enter w o) a = None <-> y_obs w a = None)) ->
    y_arr x = map Some l ++ r ->
    forall seg pre post, l = pre ++ seg ++ post -> (forall o log, In o seg -> cb log o = YReturn) ->
    forall w, y_cell w s = Some x ->
    ((forall o, In o seg -> y_obs w o <> None) ->
     exists w', yloop enter cb step s (y_ver x) (length pre) (length seg) w = YOk w' /\
       y_log w' = y_log w ++ map ev seg /\ y_cell w' = y_cell w /\ forall a, y_obs w' a = None <-> y_obs w a = None) /\
    ((exists o, In o seg /\ y_obs w o = None) ->
     exists log, yloop enter cb step s (y_ver x) (length pre) (length seg) w = YUB log).
  Proof.
    intros EC EL EO HA. induction seg as [|o seg IH]; intros pre post HL HI w HX.
    - split; [|intros (o & [] & _)]. intros _. exists w. cbn [length yloop map]. rewrite app_nil_r. split; [reflexivity|].
      split; [reflexivity|]. split; [reflexivity|]. intros a. reflexivity.
    - cbn [length yloop]. rewrite HX. cbn [yneed ybind].
      assert (SL : slot (y_arr x) (length pre) = Ok (Some o)).
      { rewrite HA, HL, !map_app, <- app_assoc. cbn [map app]. rewrite <- (map_length (@Some positive) pre). apply slot_app. }
      rewrite SL. cbn [ylift ybind yneed].
      destruct (y_obs w o) as [v|] eqn:EV; cbn [yneed ybind].
      2: { split; [|intros _; eexists; reflexivity]. intros H. exfalso. exact (H o (or_introl eq_refl) EV). }
      rewrite HI by (left; reflexivity). cbn [ybody_run ybind]. unfold ysame. rewrite EC, HX. cbn [yneed ybind].
      rewrite Nat.eqb_refl. cbn [ybind].
      specialize (IH (pre ++ [o]) post).
      rewrite app_length in IH. cbn [length] in IH. replace (length pre + 1)%nat with (S (length pre)) in IH by lia.
      destruct (IH ltac:(rewrite HL, <- app_assoc; reflexivity) ltac:(intros; apply HI; right; assumption) (enter w o)
                   ltac:(rewrite EC; exact HX)) as [IH1 IH2].
      assert (EO' : forall a, y_obs (enter w o) a = None <-> y_obs w a = None) by (intros a; apply EO; congruence).
      split.
      + intros H. destruct IH1 as (w' & R1 & R2 & R3 & R4).
        { intros a Ha. rewrite EO'. apply H. right. exact Ha. }
        exists w'. split; [exact R1|]. rewrite R2, EL, <- app_assoc. split; [reflexivity|]. rewrite R3, EC. split; [reflexivity|].
        intros a. rewrite R4. apply EO'.
      + intros (a & [Ha|Ha] & HN); [congruence|]. apply IH2. exists a. split; [exact Ha|]. apply EO', HN.
  Qed.

  Lemma store_enter s v : let enter := fun w o => yemit (put_obs w o (Some v)) (YStore s o v) in
    (forall w o, y_cell (enter w o) = y_cell w) /\
    (forall w o, y_log (enter w o) = y_log w ++ [YStore s o v]) /\
    (forall w o a, y_obs w o <> None -> (y_obs (enter w o) a = None <-> y_obs w a = None)).
  Proof.
    cbv zeta. split; [reflexivity|]. split; [reflexivity|]. intros w o a H. cbn [yemit put_obs y_obs]. unfold yput.
    destruct (Pos.eqb_spec a o) as [->|N]; [|reflexivity]. split; [discriminate|intros; contradiction].
  Qed.
  Lemma disc_enter s : let enter := fun w o => yemit w (YDisc s o) in
    (forall w o, y_cell (enter w o) = y_cell w) /\
    (forall w o, y_log (enter w o) = y_log w ++ [YDisc s o]) /\
    (forall w o a, y_obs w o <> None -> (y_obs (enter w o) a = None <-> y_obs w a = None)).
  Proof. cbv zeta. split; [reflexivity|]. split; [reflexivity|]. intros w o a H. reflexivity. Qed.

  Definition idle : Prop := idle_update upd /\ idle_disc disc.
  Lemma dead_or l (f : addr -> option Z) : (forall o, In o l -> f o <> None) \/ exists o, In o l /\ f o = None.
  Proof.
    induction l as [|o l [IH|(a & H1 & H2)]]; [left; intros o []| |right; exists a; split; [right; exact H1|exact H2]].
    destruct (f o) as [v|] eqn:E; [left|right; exists o; split; [left; reflexivity|exact E]].
    intros a [<-|H]; [congruence|apply IH, H].
  Qed.

  (** A call with idle callbacks. *)
  Definition idle_result (w : yworld) (c : ycall) (x : yres yworld) : Prop :=
    (yblocked ty (booked (y_log w)) c /\ exists log, x = YUB log) \/
    (~ yblocked ty (booked (y_log w)) c /\
     exists w' evs r, x = YOk w' /\ y_log w' = y_log w ++ YBegin c :: evs ++ [YRet c r] /\
       yeffect ty (booked (y_log w)) c evs /\
       yanswer ty Max (booked (y_log w)) (booked (y_log w ++ YBegin c :: evs)) c r).

  Lemma idle_run f w c :
    match c with
    | YNotify _ _ | YOp _ _ => forall log o n, upd log o n = YReturn
    | YClear _ | YEnd _ => forall log o, disc log o = YReturn
    | _ => True
    end -> yok w -> idle_result w c (yrun (S f) w c).
  Proof.
    intros HU K. pose proof (yrun_safe ty Max T upd disc (S f) w c K) as SAFE.
    destruct K as (I & F & L). cbn [VLifeModel.yrun] in *.
    set (w0 := yemit w (YBegin c)) in *.
    assert (I0 : yinv w0) by (apply yinv_still; [exact I|exact Logic.I]).
    destruct (step_still ty Max (booked (y_log w)) (YBegin c) Logic.I) as [B1 B2].
    rewrite <- ybooked_snoc in B1, B2. change (y_log w ++ [YBegin c]) with (y_log w0) in B1, B2.
    assert (GO : forall w1 r evs, y_log w1 = y_log w0 ++ evs ->
              ybind (ydo ty Max upd disc (yrun f) w0 c) (fun '(w1, r) => YOk (yemit w1 (YRet c r))) = YOk (yemit w1 (YRet c r)) ->
              yfinished evs ->
              ~ yblocked ty (booked (y_log w)) c -> yeffect ty (booked (y_log w)) c evs ->
              idle_result w c (ybind (ydo ty Max upd disc (yrun f) w0 c) (fun '(w1, r) => YOk (yemit w1 (YRet c r))))).
    { intros w1 r evs EL EX FE NB HE. rewrite EX in SAFE |- *. destruct SAFE as ((_ & FR & _) & _).
      right. split; [exact NB|]. exists (yemit w1 (YRet c r)), evs, r. split; [reflexivity|].
      cbn [yemit y_log] in FR |- *. assert (EQ : y_log w1 ++ [YRet c r] = y_log w ++ YBegin c :: evs ++ [YRet c r]).
      { rewrite EL. cbn [w0 yemit y_log]. rewrite <- !app_assoc. reflexivity. }
      split; [exact EQ|]. split; [exact HE|].
      destruct (FR (y_log w) c evs (YRet c r) [] EQ FE Logic.I) as (_ & _ & A & _). exact A. }
    assert (REST : ~ loops c -> (yblocked ty (booked (y_log w)) c <-> yfault ty (booked (y_log w0)) (booked (y_log w0)) 0 c) ->
              yeffect ty (booked (y_log w)) c [] ->
              idle_result w c (ybind (ydo ty Max upd disc (yrun f) w0 c) (fun '(w1, r) => YOk (yemit w1 (YRet c r))))).
    { intros NL BF HE. destruct (ydo_agrees ty Max T upd disc (yrun f) w0 c I0 NL) as [[HF EX]|(NF & w1 & r & EX & EL & _)].
      - rewrite EX. cbn [ybind]. left. split; [apply BF, HF|eexists; reflexivity].
      - apply (GO w1 r []); [rewrite app_nil_r; exact EL|rewrite EX; reflexivity|constructor|rewrite BF; exact NF|exact HE]. }
    destruct c as [s|s|o|o|s o|s o|s|s n|s op|s|o].
    all: try solve [apply REST; [intros []| |reflexivity]; cbn [yblocked yfault]; rewrite ?B1, ?B2; reflexivity].
    all: clear REST.
    all: assert (CELL : forall x, y_cell w0 s = Some x -> exists e, obl_at (booked (y_log w)) s = Some e /\
              y_cnt x = length (e_regs e) /\ y_val x = e_val e /\
              negb (vector Max s) && (max_observers (Max s) <? y_cnt x)%nat = false /\
              exists r, y_arr x = map Some (e_regs e ++ e_old e) ++ r) by
      (intros x EX; destruct (cell_some _ _ _ _ _ I0 EX) as (e & E & HV & HC & HN & r & HA & HM);
       destruct (cnt_fits ty Max T upd disc w0 s x e I0 EX E) as (Q & _); rewrite B1 in E; exists e;
       split; [exact E|]; split; [exact HC|]; split; [exact HV|]; split; [exact Q|]; exists r; exact HA).
    all: assert (GONE : y_cell w0 s = None -> blocked (booked (y_log w)) s) by
      (intros EX; unfold blocked; rewrite <- B1, (cell_none _ _ _ _ I0 EX); exact Logic.I).
    all: assert (OBS : forall o, y_obs w0 o = obd_at (booked (y_log w)) o) by
      (intros o; rewrite (yi_obs ty Max w0 I0), B2; reflexivity).
    all: assert (FIN : forall (ev : addr -> yev) (q : list addr), (forall o, match ev o with YStore _ _ _ | YDisc _ _ => True | _ => False end) ->
              yfinished (map ev q)) by
      (intros ev q HEV; induction q as [|o q IHq]; cbn [map]; [constructor|]; specialize (HEV o); destruct (ev o); try contradiction;
       constructor; exact IHq).
    - destruct (y_cell w0 s) as [x|] eqn:EX.
      2: { left. split; [apply GONE; reflexivity|]. cbn [ydo]. unfold ydisconnect. rewrite EX. eexists. reflexivity. }
      destruct (CELL x eq_refl) as (e & E & HC & _ & _ & r & HA).
      destruct (disc_enter s) as (D1 & D2 & D3).
      destruct (idle_loop _ (fun o => YDisc s o) disc (yrun f) s x (e_regs e ++ e_old e) r D1 D2 D3 HA (e_regs e) [] (e_old e) eq_refl
                  ltac:(intros; apply HU) w0 EX) as [L1 L2]. cbn [length] in L1, L2.
      destruct (dead_or (e_regs e) (y_obs w0)) as [AL|(o & HI & HN)].
      + destruct (L1 AL) as (w1 & R1 & R2 & R3 & _).
        apply (GO (put_cell w1 s None) RUnit (map (fun o => YDisc s o) (e_regs e))).
        * exact R2.
        * cbn [ydo]. unfold ydisconnect. rewrite EX. cbn [yneed ybind]. rewrite HC, R1. cbn [ybind]. rewrite R3, EX. reflexivity.
        * apply FIN. intros o. exact Logic.I.
        * cbn [yblocked]. unfold blocked. rewrite E. intros (o & HI & HN). apply (AL o HI). rewrite OBS. exact HN.
        * exists e. split; [exact E|reflexivity].
      + left. split; [cbn [yblocked]; unfold blocked; rewrite E; exists o; split; [exact HI|rewrite <- OBS; exact HN]|].
        destruct (L2 (ex_intro _ o (conj HI HN))) as (log & R). exists log.
        cbn [ydo]. unfold ydisconnect. rewrite EX. cbn [yneed ybind]. rewrite HC, R. reflexivity.
    - destruct (y_cell w0 s) as [x|] eqn:EX.
      2: { left. split; [apply GONE; reflexivity|]. cbn [ydo]. unfold ydisconnect. rewrite EX. eexists. reflexivity. }
      destruct (CELL x eq_refl) as (e & E & HC & _ & _ & r & HA).
      destruct (disc_enter s) as (D1 & D2 & D3).
      destruct (idle_loop _ (fun o => YDisc s o) disc (yrun f) s x (e_regs e ++ e_old e) r D1 D2 D3 HA (e_regs e) [] (e_old e) eq_refl
                  ltac:(intros; apply HU) w0 EX) as [L1 L2]. cbn [length] in L1, L2.
      destruct (dead_or (e_regs e) (y_obs w0)) as [AL|(o & HI & HN)].
      + destruct (L1 AL) as (w1 & R1 & R2 & R3 & _).
        eapply (GO (put_cell w1 s _) RUnit (map (fun o => YDisc s o) (e_regs e))).
        * exact R2.
        * cbn [ydo]. unfold ydisconnect. rewrite EX. cbn [yneed ybind]. rewrite HC, R1. cbn [ybind]. rewrite R3, EX. reflexivity.
        * apply FIN. intros o. exact Logic.I.
        * cbn [yblocked]. unfold blocked. rewrite E. intros (o & HI & HN). apply (AL o HI). rewrite OBS. exact HN.
        * exists e. split; [exact E|reflexivity].
      + left. split; [cbn [yblocked]; unfold blocked; rewrite E; exists o; split; [exact HI|rewrite <- OBS; exact HN]|].
        destruct (L2 (ex_intro _ o (conj HI HN))) as (log & R). exists log.
        cbn [ydo]. unfold ydisconnect. rewrite EX. cbn [yneed ybind]. rewrite HC, R. reflexivity.
    - destruct (y_cell w0 s) as [x|] eqn:EX.
      2: { left. split; [apply GONE; reflexivity|]. cbn [ydo]. unfold ynotify. rewrite EX. eexists. reflexivity. }
      destruct (CELL x eq_refl) as (e & E & HC & _ & HQ & r & HA).
      destruct (store_enter s (conv (ty s) n)) as (D1 & D2 & D3).
      destruct (idle_loop _ (fun o => YStore s o (conv (ty s) n)) (fun log o => upd log o (conv (ty s) n)) (yrun f) s x (e_regs e ++ e_old e) r D1 D2 D3 HA (e_regs e) [] (e_old e) eq_refl
                  ltac:(intros; apply HU) w0 EX) as [L1 L2]. cbn [length] in L1, L2.
      destruct (dead_or (e_regs e) (y_obs w0)) as [AL|(o & HI & HN)].
      + destruct (L1 AL) as (w1 & R1 & R2 & R3 & _).
        apply (GO w1 (RErr ok) (map (fun o => YStore s o (conv (ty s) n)) (e_regs e))).
        * exact R2.
        * cbn [ydo]. unfold ynotify. rewrite EX. cbn [yneed ybind]. rewrite HQ, HC, R1. reflexivity.
        * apply FIN. intros o. exact Logic.I.
        * cbn [yblocked]. unfold blocked. rewrite E. intros (o & HI & HN). apply (AL o HI). rewrite OBS. exact HN.
        * exists e. split; [exact E|reflexivity].
      + left. split; [cbn [yblocked]; unfold blocked; rewrite E; exists o; split; [exact HI|rewrite <- OBS; exact HN]|].
        destruct (L2 (ex_intro _ o (conj HI HN))) as (log & R). exists log.
        cbn [ydo]. unfold ynotify. rewrite EX. cbn [yneed ybind]. rewrite HQ, HC, R. reflexivity.
    - destruct (y_cell w0 s) as [x|] eqn:EX.
      2: { left. split; [left; apply GONE; reflexivity|]. cbn [ydo]. rewrite EX. eexists. reflexivity. }
      destruct (CELL x eq_refl) as (e & E & HC & HV & HQ & r & HA).
      destruct (published_ub (ty s) (y_val x) op) as [PU PF].
      destruct (published (ty s) (y_val x) op) as [p| |] eqn:EP; [| |congruence].
      2: { left. split; [right; exists e; split; [exact E|]; rewrite <- HV; apply PU; reflexivity|].
           cbn [ydo]. rewrite EX. cbn [yneed ybind]. cbv zeta. rewrite EP. eexists. reflexivity. }
      set (x1 := YCell (apply_atomic (ty s) (y_val x) op) (y_arr x) (y_cnt x) (y_ver x)).
      set (wa := yemit (put_cell w0 s (Some x1)) (YApplied s op)).
      assert (EA : y_cell wa s = Some x1).
      { cbn [wa yemit put_cell y_cell]. unfold yput. rewrite Pos.eqb_refl. reflexivity. }
      destruct (store_enter s p) as (D1 & D2 & D3).
      destruct (idle_loop _ (fun o => YStore s o p) (fun log o => upd log o p) (yrun f) s x1 (e_regs e ++ e_old e) r D1 D2 D3 HA (e_regs e) [] (e_old e) eq_refl
                  ltac:(intros; apply HU) wa EA) as [L1 L2]. cbn [length] in L1, L2.
      assert (DO : ydo ty Max upd disc (yrun f) w0 (YOp s op) =
                   ybind (ybind (yloop (fun w o => yemit (put_obs w o (Some p)) (YStore s o p)) (fun log o => upd log o p) (yrun f) s
                           (y_ver x1) 0 (length (e_regs e)) wa) (fun w1 => YOk (w1, RErr ok))) (fun '(w1, _) => YOk (w1, RVal p))).
      { cbn [ydo]. rewrite EX. cbn [yneed ybind]. cbv zeta. rewrite EP. cbn [ylift ybind]. unfold ynotify.
        change (yemit (put_cell w0 s (Some (YCell (apply_atomic (ty s) (y_val x) op) (y_arr x) (y_cnt x) (y_ver x)))) (YApplied s op)) with wa.
        rewrite EA. cbn [yneed ybind]. change (y_cnt x1) with (y_cnt x). rewrite HQ, HC. reflexivity. }
      destruct (dead_or (e_regs e) (y_obs w0)) as [AL|(o & HI & HN)].
      + destruct (L1 AL) as (w1 & R1 & R2 & R3 & _).
        apply (GO w1 (RVal p) (YApplied s op :: map (fun o => YStore s o p) (e_regs e))).
        * rewrite R2. cbn [wa yemit put_cell y_log]. rewrite <- app_assoc. reflexivity.
        * rewrite DO, R1. reflexivity.
        * constructor. apply FIN. intros o. exact Logic.I.
        * cbn [yblocked]. unfold blocked. rewrite E. intros [(o & HI & HN)|(e1 & E1 & HO)].
          -- apply (AL o HI). rewrite OBS. exact HN.
          -- rewrite E in E1. injection E1 as <-. rewrite <- HV in HO. apply PU in HO. discriminate.
        * exists e, p. split; [exact E|]. split; [|reflexivity]. rewrite <- HV. apply publishes_it; [exact T|exact EP].
      + left. split; [left; unfold blocked; rewrite E; exists o; split; [exact HI|rewrite <- OBS; exact HN]|].
        destruct (L2 (ex_intro _ o (conj HI HN))) as (log & R). exists log. rewrite DO, R. reflexivity.
  Qed.

  (** A call that does not go through observeds. *)
  Lemma plain_run f w c : yinv w -> ~ loops c -> ~ yfault ty (booked (y_log w)) (booked (y_log w)) 0 c ->
    exists w' r, yrun (S f) w c = YOk w' /\ yinv w' /\ y_log w' = y_log w ++ [YBegin c; YRet c r] /\
      yanswer ty Max (booked (y_log w)) (booked (y_log w ++ [YBegin c])) c r.
  Proof.
    intros I NL NF. cbn [VLifeModel.yrun]. set (w0 := yemit w (YBegin c)).
    assert (I0 : yinv w0) by (apply yinv_still; [exact I|exact Logic.I]).
    destruct (step_still ty Max (booked (y_log w)) (YBegin c) Logic.I) as [B1 B2].
    rewrite <- ybooked_snoc in B1, B2. change (y_log w ++ [YBegin c]) with (y_log w0) in B1, B2 |- *.
    assert (FEQ : yfault ty (booked (y_log w0)) (booked (y_log w0)) 0 c -> yfault ty (booked (y_log w)) (booked (y_log w)) 0 c).
    { destruct c; try (exfalso; apply NL; exact Logic.I); cbn [yfault]; rewrite ?B1, ?B2; auto. }
    destruct (ydo_agrees ty Max T upd disc (yrun f) w0 c I0 NL) as [[HF _]|(_ & w1 & r & EX & EL & AN & IR)].
    { exfalso. apply NF, FEQ, HF. }
    rewrite EX. cbn [ybind]. exists (yemit w1 (YRet c r)), r. split; [reflexivity|]. split; [exact IR|]. cbn [yemit y_log].
    rewrite EL. split; [cbn [w0 yemit y_log]; rewrite <- app_assoc; reflexivity|].
    destruct c; try (exfalso; apply NL; exact Logic.I); exact AN.
  Qed.
  Lemma run_ok f w c w' : yok w -> yrun f w c = YOk w' -> yok w'.
  Proof. intros K E. pose proof (yrun_safe ty Max T upd disc f w c K) as H. rewrite E in H. apply H. Qed.
  Lemma book2 l c r : booked (l ++ [YBegin c; YRet c r]) = ybook_step ty Max (ybook_step ty Max (booked l) (YBegin c)) (YRet c r).
  Proof. rewrite ybooked_app. reflexivity. Qed.
  Lemma on_entry_at b s f x : obl_at b s = Some x -> on_entry b s f s = Some (f x).
  Proof. intros E. unfold on_entry. rewrite E. unfold yset. destruct (Pos.eq_dec s s); [reflexivity|congruence]. Qed.

  (** Removing: what the book says after it. *)
  Lemma remove_run f w s o x : yinv w -> obl_at (booked (y_log w)) s = Some x -> obd_at (booked (y_log w)) o <> None ->
    In o (e_regs x) ->
    exists w', yrun (S f) w (YRemove s o) = YOk w' /\ yinv w' /\
      y_log w' = y_log w ++ [YBegin (YRemove s o); YRet (YRemove s o) (RErr ok)] /\
      obd_at (booked (y_log w')) = obd_at (booked (y_log w)) /\
      obl_at (booked (y_log w')) s = Some (if vector Max s
        then Entry (e_val x) (without o (e_regs x) ++ tail_left o (e_regs x)) (e_old x) (e_since x)
        else Entry (e_val x) (without o (e_regs x)) (tail_left o (e_regs x) ++ e_old x) (e_since x)).
  Proof.
    intros K E HO HI. destruct (plain_run f w (YRemove s o) K ltac:(intros [])) as (w' & r & R1 & R2 & R3 & R4).
    { cbn [yfault]. rewrite E. intros [H|H]; [discriminate|contradiction]. }
    assert (r = RErr ok).
    { destruct R4 as (x1 & E1 & ->). rewrite ybooked_snoc in E1.
      destruct (step_still ty Max (booked (y_log w)) (YBegin (YRemove s o)) Logic.I) as [B1 _]. rewrite B1, E in E1.
      injection E1 as <-. unfold remove_answer. destruct (in_dec Pos.eq_dec o (e_regs x)); [reflexivity|contradiction]. }
    subst r. exists w'. split; [exact R1|]. split; [exact R2|]. split; [exact R3|]. rewrite R3, book2. split; [reflexivity|].
    cbn [ybook_step obl_at events]. erewrite on_entry_at by (exact E). destruct (vector Max s); reflexivity.
  Qed.
  Lemma end_run f w o : yinv w -> obd_at (booked (y_log w)) o <> None ->
    exists w', yrun (S f) w (YObsEnd o) = YOk w' /\ yinv w' /\
      y_log w' = y_log w ++ [YBegin (YObsEnd o); YRet (YObsEnd o) RUnit] /\
      obl_at (booked (y_log w')) = obl_at (booked (y_log w)) /\
      forall a, obd_at (booked (y_log w')) a = if Pos.eq_dec a o then None else obd_at (booked (y_log w)) a.
  Proof.
    intros K HO. destruct (plain_run f w (YObsEnd o) K ltac:(intros [])) as (w' & r & R1 & R2 & R3 & R4).
    { exact HO. }
    cbn [yanswer] in R4. subst r. exists w'. split; [exact R1|]. split; [exact R2|]. split; [exact R3|]. rewrite R3, book2.
    split; [reflexivity|]. intros a. reflexivity.
  Qed.
  Lemma birth_run f w o : yinv w -> obd_at (booked (y_log w)) o = None ->
    exists w', yrun (S f) w (YObs o) = YOk w' /\ yinv w' /\
      y_log w' = y_log w ++ [YBegin (YObs o); YRet (YObs o) RUnit] /\
      obl_at (booked (y_log w')) = obl_at (booked (y_log w)) /\
      forall a, obd_at (booked (y_log w')) a = if Pos.eq_dec a o then Some 0 else obd_at (booked (y_log w)) a.
  Proof.
    intros K HO. destruct (plain_run f w (YObs o) K ltac:(intros [])) as (w' & r & R1 & R2 & R3 & R4).
    { intros H. apply H, HO. }
    cbn [yanswer] in R4. subst r. exists w'. split; [exact R1|]. split; [exact R2|]. split; [exact R3|]. rewrite R3, book2.
    split; [reflexivity|]. intros a. reflexivity.
  Qed.
  Lemma last_stays (o : addr) l : In o (without o (l ++ [o]) ++ tail_left o (l ++ [o])).
  Proof.
    apply in_or_app. right. unfold tail_left. 
    assert (L : (length (without o (l ++ [o])) <= length l)%nat).
    { unfold without. rewrite remove_app. cbn [remove]. destruct (Pos.eq_dec o o); [|congruence]. rewrite app_nil_r.
      clear. induction l as [|x l IH]; cbn [remove length]; [lia|]. destruct (Pos.eq_dec o x); cbn [length]; lia. }
    rewrite skipn_app. apply in_or_app. right. replace (_ - _)%nat with 0%nat by lia. left. reflexivity.
  Qed.
  Lemma last_out (o : addr) l : ~ In o l -> without o (l ++ [o]) = l /\ tail_left o (l ++ [o]) = [o].
  Proof.
    intros H. assert (E : without o (l ++ [o]) = l).
    { unfold without. rewrite remove_app, (remove_notin o l H). cbn [remove]. destruct (Pos.eq_dec o o); [|congruence].
      apply app_nil_r. }
    split; [exact E|]. unfold tail_left. rewrite E. rewrite skipn_app, skipn_all, Nat.sub_diag. reflexivity.
  Qed.

  (** A callback that removes and ends the last one, while a loop runs. *)
  Lemma removed_in_callback f w s n x a m o : yinv w -> vector Max s = false ->
    obl_at (booked (y_log w)) s = Some x -> e_regs x = a :: m ++ [o] -> NoDup (e_regs x) ->
    (forall b, In b (e_regs x) -> obd_at (booked (y_log w)) b <> None) ->
    (forall log v, upd log a v = YDo (YRemove s o) (fun _ => YDo (YObsEnd o) (fun _ => YReturn))) ->
    (forall log b v, b <> a -> upd log b v = YReturn) ->
    exists log, yrun (S (S f)) w (YNotify s n) = YUB log.
  Proof.
    intros I NV E ER ND AL UA UO. remember (S f) as f1 eqn:EF. cbn [VLifeModel.yrun]. set (c := YNotify s n). set (w0 := yemit w (YBegin c)).
    assert (I0 : yinv w0) by (apply yinv_still; [exact I|exact Logic.I]).
    destruct (step_still ty Max (booked (y_log w)) (YBegin c) Logic.I) as [B1 B2].
    rewrite <- ybooked_snoc in B1, B2. change (y_log w ++ [YBegin c]) with (y_log w0) in B1, B2.
    assert (E0 : obl_at (booked (y_log w0)) s = Some x) by (rewrite B1; exact E).
    cbn [c ydo]. unfold ynotify. pose proof (yi_cell ty Max w0 I0 s) as HC. rewrite E0 in HC.
    destruct (y_cell w0 s) as [x1|] eqn:EX; [|destruct HC]. cbn [yneed ybind].
    destruct (cnt_fits ty Max T upd disc w0 s x1 x I0 EX E0) as (HQ & HN & HVX). rewrite HQ, HN.
    destruct HC as (_ & _ & _ & r & HA & _).
    rewrite ER. cbn [length yloop]. rewrite EX. cbn [yneed ybind]. rewrite HA, ER. unfold slot at 1. cbn [app map nth_error ylift ybind yneed].
    assert (AL0 : forall b, In b (e_regs x) -> y_obs w0 b <> None).
    { intros b Hb. rewrite (yi_obs ty Max w0 I0), B2. apply AL, Hb. }
    destruct (y_obs w0 a) as [va|] eqn:EVA; [|exfalso; apply (AL0 a); [rewrite ER; left; reflexivity|exact EVA]].
    cbn [yneed ybind]. rewrite UA. set (v := conv (ty s) n). set (w1 := yemit (put_obs w0 a (Some v)) (YStore s a v)).
    assert (I1 : yinv w1) by (apply store_inv, I0).
    assert (BK : booked (y_log w1) = ybook_step ty Max (booked (y_log w0)) (YStore s a v)) by (cbn [w1 yemit put_obs y_log]; apply ybooked_snoc).
    assert (E1 : obl_at (booked (y_log w1)) s = Some x) by (rewrite BK; exact E0).
    assert (A1 : forall b, In b (e_regs x) -> obd_at (booked (y_log w1)) b <> None).
    { intros b Hb. rewrite BK. cbn [ybook_step obd_at]. intros HH. apply yset_some in HH. rewrite B2 in HH. exact (AL b Hb (proj1 HH)). }
    assert (HO : In o (e_regs x)) by (rewrite ER; right; apply in_or_app; right; left; reflexivity).
    subst f1. cbn [ybody_run].
    destruct (remove_run f w1 s o x I1 E1 (A1 o HO) HO) as (w2 & R2 & I2 & L2 & D2 & O2). rewrite R2. cbn [ybind]. rewrite NV in O2.
    rewrite ER in O2, ND. replace (a :: m ++ [o]) with ((a :: m) ++ [o]) in O2, ND by reflexivity.
    assert (NO : ~ In o (a :: m)).
    { apply NoDup_remove_2 in ND. rewrite app_nil_r in ND. exact ND. }
    destruct (last_out o (a :: m) NO) as [W1 W2]. rewrite W1, W2 in O2.
    destruct (end_run f w2 o I2 ltac:(rewrite D2; apply A1, HO)) as (w3 & R3 & I3 & L3 & D3 & O3). rewrite R3. cbn [ybind].
    rewrite <- D3 in O2.
    pose proof (yi_cell ty Max w3 I3 s) as C3. rewrite O2 in C3. destruct (y_cell w3 s) as [x3|] eqn:EX3; [|destruct C3].
    destruct C3 as (_ & _ & V3 & r3 & A3 & _). cbn [e_regs e_old e_since] in *.
    unfold ysame. rewrite EX3. cbn [yneed ybind]. rewrite V3, HVX, Nat.eqb_refl. cbn [ybind].
    destruct (store_enter s v) as (P1 & P2 & P3).
    destruct (idle_loop _ (fun o => YStore s o v) (fun log o => upd log o v) (yrun (S f)) s x3 ((a :: m) ++ [o] ++ e_old x) r3 P1 P2 P3 A3
                (m ++ [o]) [a] (e_old x)) with (w := w3) as [_ BADL].
    - cbn [app]. rewrite <- app_assoc. reflexivity.
    - intros b log Hb. apply UO. intros ->. apply in_app_iff in Hb. destruct Hb as [Hb|[->|[]]].
      + rewrite <- app_comm_cons in ND. inversion ND as [|? ? NI _]. apply NI, in_or_app. left. exact Hb.
      + apply NO. left. reflexivity.
    - exact EX3.
    - destruct BADL as (log & BADL).
      { exists o. split; [apply in_or_app; right; left; reflexivity|]. rewrite (yi_obs ty Max w3 I3), O3.
        destruct (Pos.eq_dec o o); [reflexivity|congruence]. }
      rewrite V3 in BADL. cbn [length] in BADL. rewrite BADL. exists log. reflexivity.
  Qed.

  (** Ending an observable whose observeds all exist. *)
  Lemma obl_end_run f w s x : (forall log o, disc log o = YReturn) -> yinv w -> obl_at (booked (y_log w)) s = Some x ->
    (forall b, In b (e_regs x) -> obd_at (booked (y_log w)) b <> None) ->
    exists w', yrun (S f) w (YEnd s) = YOk w' /\ y_cell w' s = None.
  Proof.
    intros HD I E AL. cbn [VLifeModel.yrun]. set (w0 := yemit w (YBegin (YEnd s))).
    assert (I0 : yinv w0) by (apply yinv_still; [exact I|exact Logic.I]).
    pose proof (yi_cell ty Max w I s) as HC. rewrite E in HC. change (y_cell w s) with (y_cell w0 s) in HC.
    destruct (y_cell w0 s) as [x1|] eqn:EX; [|destruct HC]. destruct HC as (_ & HN & _ & r & HA & _).
    cbn [ydo]. unfold ydisconnect. rewrite EX. cbn [yneed ybind]. rewrite HN.
    destruct (disc_enter s) as (P1 & P2 & P3).
    destruct (idle_loop _ (fun o => YDisc s o) disc (yrun f) s x1 (e_regs x ++ e_old x) r P1 P2 P3 HA (e_regs x) [] (e_old x) eq_refl
                ltac:(intros; apply HD) w0 EX) as [L1 _]. cbn [length] in L1.
    destruct L1 as (w1 & R1 & _ & R3 & _).
    { intros b Hb. change (y_obs w b <> None). rewrite (yi_obs ty Max w I). apply AL, Hb. }
    rewrite R1. cbn [ybind]. rewrite R3, EX. cbn [yneed ybind]. eexists. split; [reflexivity|].
    cbn [yemit put_cell y_cell]. unfold yput. rewrite Pos.eqb_refl. reflexivity.
  Qed.
  Lemma ends_in_callback f w s n x a m : (forall log o, disc log o = YReturn) -> yinv w ->
    obl_at (booked (y_log w)) s = Some x -> e_regs x = a :: m ->
    (forall b, In b (e_regs x) -> obd_at (booked (y_log w)) b <> None) ->
    (forall log v, upd log a v = YDo (YEnd s) (fun _ => YReturn)) ->
    exists log, yrun (S (S f)) w (YNotify s n) = YUB log.
  Proof.
    intros HD I E ER AL UA. remember (S f) as f1 eqn:EF. cbn [VLifeModel.yrun]. set (c := YNotify s n). set (w0 := yemit w (YBegin c)).
    assert (I0 : yinv w0) by (apply yinv_still; [exact I|exact Logic.I]).
    destruct (step_still ty Max (booked (y_log w)) (YBegin c) Logic.I) as [B1 B2].
    rewrite <- ybooked_snoc in B1, B2. change (y_log w ++ [YBegin c]) with (y_log w0) in B1, B2.
    assert (E0 : obl_at (booked (y_log w0)) s = Some x) by (rewrite B1; exact E).
    cbn [c ydo]. unfold ynotify. pose proof (yi_cell ty Max w0 I0 s) as HC. rewrite E0 in HC.
    destruct (y_cell w0 s) as [x1|] eqn:EX; [|destruct HC]. cbn [yneed ybind].
    destruct (cnt_fits ty Max T upd disc w0 s x1 x I0 EX E0) as (HQ & HN & HVX). rewrite HQ, HN.
    destruct HC as (_ & _ & _ & r & HA & _).
    rewrite ER. cbn [length yloop]. rewrite EX. cbn [yneed ybind]. rewrite HA, ER. unfold slot at 1. cbn [app map nth_error ylift ybind yneed].
    destruct (y_obs w0 a) as [va|] eqn:EVA.
    2: { exfalso. apply (AL a); [rewrite ER; left; reflexivity|]. rewrite <- B2, <- (yi_obs ty Max w0 I0). exact EVA. }
    cbn [yneed ybind]. rewrite UA. set (v := conv (ty s) n). set (w1 := yemit (put_obs w0 a (Some v)) (YStore s a v)).
    assert (I1 : yinv w1) by (apply store_inv, I0).
    assert (BK : booked (y_log w1) = ybook_step ty Max (booked (y_log w0)) (YStore s a v)) by (cbn [w1 yemit put_obs y_log]; apply ybooked_snoc).
    destruct (obl_end_run f w1 s x HD I1) as (w2 & R2 & N2).
    { rewrite BK. exact E0. }
    { intros b Hb. rewrite BK. cbn [ybook_step obd_at]. intros HH. apply yset_some in HH. rewrite B2 in HH. exact (AL b Hb (proj1 HH)). }
    subst f1. cbn [ybody_run]. rewrite R2. cbn [ybind]. unfold ysame. rewrite N2. eexists. reflexivity.
  Qed.
End Idle.
