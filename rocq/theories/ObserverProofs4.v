(** The dynamic observable and the compile-time chain. *)
From Verif Require Export ObserverProofs3.

Section Dyn.
  Context {V : Type}.
  Variable self : addr.
  Variable locking : bool.

  Inductive dgood : list (ev V) -> Prop :=
  | dgood_nil : dgood []
  | dgood_add log o : dgood log -> dgood (log ++ [Ret (Add o) (dadd_answer (members log) o)])
  | dgood_remove log o : dgood log -> dgood (log ++ [Ret (Remove o) (remove_answer (members log) o)])
  | dgood_clear log : dgood log -> dgood (log ++ [Ret Clear ok])
  | dgood_notify log v : dgood log -> dgood (log ++ [Ret (Notify v) ok])
  | dgood_data log o v : dgood log -> In o (members log) -> dgood (log ++ [Data self o v])
  | dgood_disc log o : dgood log -> In o (members log) -> dgood (log ++ [Disc self o]).

  Definition changes (log : list (ev V)) : nat := length (filter changed log).

  Record dinv (w : dworld V) : Prop := {
    di_obs : d_obs w = members (d_log w);
    di_nodup : NoDup (members (d_log w));
    di_ver : d_ver w = changes (d_log w);
    di_good : dgood (d_log w)
  }.

  Lemma changes_snoc log e : changes (log ++ [e]) = (changes log + if changed e then 1 else 0)%nat.
  Proof. unfold changes. rewrite filter_app, app_length. cbn. destruct (changed e); reflexivity. Qed.

  Record dext (w w' : dworld V) : Prop := {
    de_inv : dinv w';
    de_lock : d_locked w' = d_locked w;
    de_log : exists evs, d_log w' = d_log w ++ evs
  }.

  Lemma dext_refl w : dinv w -> dext w w.
  Proof. intros H. split; [exact H|reflexivity|]. exists []. rewrite app_nil_r. reflexivity. Qed.

  Lemma dext_trans a b c : dext a b -> dext b c -> dext a c.
  Proof.
    intros [A1 A2 [e1 A3]] [B1 B2 [e2 B3]]. split; [exact B1|congruence|].
    exists (e1 ++ e2). rewrite B3, A3, app_assoc. reflexivity.
  Qed.

  (** Same number of changes: same members. *)
  Lemma no_change (log evs : list (ev V)) :
    changes (log ++ evs) = changes log -> forall e, In e evs -> changed e = false.
  Proof.
    unfold changes. rewrite filter_app, app_length. intros H e He.
    assert (L : length (filter changed evs) = 0%nat) by lia.
    destruct (changed e) eqn:E; [|reflexivity]. exfalso.
    assert (HI : In e (filter changed evs)) by (apply filter_In; tauto).
    destruct (filter changed evs); [exact HI|discriminate].
  Qed.

  Lemma members_app_quiet (log evs : list (ev V)) :
    (forall e, In e evs -> changed e = false) -> members (log ++ evs) = members log.
  Proof.
    revert log. induction evs as [|e evs IH]; intros log H.
    - rewrite app_nil_r. reflexivity.
    - replace (log ++ e :: evs) with ((log ++ [e]) ++ evs) by (rewrite <- app_assoc; reflexivity).
      rewrite IH by (intros x Hx; apply H; right; exact Hx).
      rewrite members_snoc. specialize (H e (or_introl eq_refl)).
      destruct e as [| |[o|o| |v] []]; cbn in *; try reflexivity; discriminate.
  Qed.

  Lemma dcontains_spec l o : dcontains l o = if in_dec Pos.eq_dec o l then true else false.
  Proof.
    induction l as [|x l IH]; [reflexivity|]. cbn [dcontains].
    destruct (Pos.eqb_spec x o) as [E|N].
    - destruct (in_dec Pos.eq_dec o (x :: l)) as [H|H]; [reflexivity|]. exfalso. apply H. left. exact E.
    - rewrite IH. destruct (in_dec Pos.eq_dec o l) as [H|H];
      destruct (in_dec Pos.eq_dec o (x :: l)) as [H'|H']; try reflexivity; exfalso.
      + apply H'. right. exact H.
      + destruct H' as [E|H']; congruence.
  Qed.

  Lemma filter_remove (l : list addr) o :
    filter (fun x => negb (Pos.eqb x o)) l = remove Pos.eq_dec o l.
  Proof.
    induction l as [|x l IH]; [reflexivity|]. cbn.
    destruct (Pos.eq_dec o x) as [E|N]; destruct (Pos.eqb_spec x o) as [E'|N']; cbn; try congruence.
  Qed.

  Lemma NoDup_remove_all (l : list addr) o : NoDup l -> NoDup (remove Pos.eq_dec o l).
  Proof.
    induction l as [|x l IH]; intros H; [constructor|]. inversion H; subst.
    cbn. destruct (Pos.eq_dec o x); [auto|]. constructor; [|auto].
    intros HI. apply in_remove in HI. tauto.
  Qed.

  Lemma NoDup_snoc (l : list addr) o : NoDup l -> ~ In o l -> NoDup (l ++ [o]).
  Proof.
    intros H HN. rewrite <- (rev_involutive (l ++ [o])). apply NoDup_rev.
    rewrite rev_app_distr. cbn. constructor; [rewrite <- in_rev; exact HN|]. apply NoDup_rev. exact H.
  Qed.

  Lemma dinv_fresh : dinv dfresh.
  Proof. split; cbn; try reflexivity; constructor. Qed.

  Variable on_data : list (ev V) -> addr -> V -> body V.
  Variable on_disc : list (ev V) -> addr -> body V.
  Notation drun := (drun self locking on_data on_disc).

  Lemma dbody_ext f b :
    (forall w c w' e, dinv w -> drun f w c = Ok (w', e) -> dext w w') ->
    forall w w', dinv w -> drun_body (drun f) b w = Ok w' -> dext w w'.
  Proof.
    intros HS. induction b as [|c k IH]; intros w w' I E; cbn [drun_body] in E.
    - inversion E; subst. apply dext_refl. exact I.
    - destruct (drun f w c) as [[w1 e1]| |] eqn:E1; cbn [bind] in E; try discriminate.
      pose proof (HS w c w1 e1 I E1) as X1.
      eapply dext_trans; [exact X1|]. apply (IH e1); [apply X1|exact E].
  Qed.

  (** A round leaves the set alone or the run is undefined. *)
  Lemma dround_ext f cb mk p :
    (forall w c w' e, dinv w -> drun f w c = Ok (w', e) -> dext w w') ->
    (mk p = Disc self p \/ exists v, mk p = Data self p v) ->
    forall w w', dinv w -> In p (d_obs w) ->
    dround cb mk (drun f) p w = Ok w' ->
    dext w w' /\ d_obs w' = d_obs w /\ d_ver w' = d_ver w.
  Proof.
    intros HS HM w w' I HP E. unfold dround in E.
    destruct (drun_body (drun f) (cb (d_log w) p) (demit w (mk p))) as [w1| |] eqn:E1;
      cbn [bind] in E; try discriminate.
    assert (I1 : dinv (demit w (mk p))).
    { destruct I as [H1 H2 H3 H4].
      assert (HC : changed (mk p) = false) by (destruct HM as [->|[v ->]]; reflexivity).
      assert (HMs : members (d_log w ++ [mk p]) = members (d_log w)).
      { apply members_app_quiet. intros e [<-|[]]. exact HC. }
      unfold demit. split; cbn [d_obs d_ver d_log].
      - rewrite HMs. exact H1.
      - rewrite HMs. exact H2.
      - rewrite changes_snoc, HC. lia.
      - rewrite H1 in HP. destruct HM as [->|[v ->]]; constructor; assumption. }
    assert (X0 : dext w (demit w (mk p))).
    { split; [exact I1|reflexivity|]. exists [mk p]. reflexivity. }
    pose proof (dbody_ext f _ HS _ _ I1 E1) as X1.
    destruct (d_ver w1 =? d_ver w)%nat eqn:EV; [|discriminate]. inversion E; subst w1.
    pose proof (dext_trans _ _ _ X0 X1) as X. split; [exact X|].
    assert (EV' : d_ver w' = d_ver w) by lia. split; [|exact EV'].
    destruct X as [[D1 D2 D3 D4] _ [evs DL]].
    rewrite D1, (di_obs _ I), DL. apply members_app_quiet. apply (no_change (d_log w)).
    rewrite <- DL, <- D3, EV'. apply (di_ver _ I).
  Qed.

  Lemma dloop_ext f cb mk :
    (forall w c w' e, dinv w -> drun f w c = Ok (w', e) -> dext w w') ->
    (forall p, mk p = Disc self p \/ exists v, mk p = Data self p v) ->
    forall l w w', dinv w -> incl l (d_obs w) ->
    dloop (dround cb mk (drun f)) l w = Ok w' ->
    dext w w' /\ d_obs w' = d_obs w /\ d_ver w' = d_ver w.
  Proof.
    intros HS HM. induction l as [|p l IH]; intros w w' I HI E; cbn [dloop] in E.
    - inversion E; subst. split; [apply dext_refl; exact I|]. tauto.
    - destruct (dround cb mk (drun f) p w) as [w1| |] eqn:E1; cbn [bind] in E; try discriminate.
      destruct (dround_ext f cb mk p HS (HM p) w w1 I (HI p (or_introl eq_refl)) E1) as (X1 & O1 & V1).
      destruct (IH w1 w' (de_inv _ _ X1)) as (X2 & O2 & V2).
      { rewrite O1. intros x Hx. apply HI. right. exact Hx. }
      { exact E. }
      split; [eapply dext_trans; eassumption|]. split; congruence.
  Qed.

  Lemma dinv_lock w b : dinv w -> dinv (DW (d_obs w) (d_ver w) b (d_log w)).
  Proof. intros [H1 H2 H3 H4]. split; cbn; assumption. Qed.

  Definition dpost (w : dworld V) (c : call V) (w' : dworld V) (e : err) : Prop :=
    dext w w' /\ exists evs, d_log w' = d_log w ++ evs ++ [Ret c e] /\
    match c with
    | Add o => evs = [] /\ e = dadd_answer (members (d_log w)) o
    | Remove o => evs = [] /\ e = remove_answer (members (d_log w)) o
    | Clear => e = ok /\ forall x, In x evs -> changed x = false
    | Notify v => e = ok /\ forall x, In x evs -> changed x = false
    end.

  (** The world after taking the lock. *)
  Lemma acquire_ok w w1 : dinv w -> (locking = true -> d_locked w = false) ->
    acquire locking w = Ok w1 ->
    dinv w1 /\ d_obs w1 = d_obs w /\ d_ver w1 = d_ver w /\ d_log w1 = d_log w /\ d_locked w1 = locking || d_locked w.
  Proof.
    intros I HL E. unfold acquire in E. destruct locking.
    - destruct (d_locked w) eqn:EL; [discriminate|]. inversion E; subst. cbn.
      split; [apply dinv_lock; exact I|]. tauto.
    - inversion E; subst. cbn. tauto.
  Qed.

  Lemma acquire_cases (w : dworld V) : acquire locking w = UB \/
    (exists w1, acquire locking w = Ok w1 /\ (locking = true -> d_locked w = false)).
  Proof.
    unfold acquire. destruct locking.
    - destruct (d_locked w); [left; reflexivity|right; eexists; split; [reflexivity|reflexivity]].
    - right. eexists. split; [reflexivity|discriminate].
  Qed.

  (** Finishing a call: the lock is released and the return is logged. *)
  Lemma finish w w2 c e evs :
    dinv w -> (locking = true -> d_locked w = false) -> d_locked w2 = locking || d_locked w ->
    d_log w2 = d_log w ++ evs ->
    d_obs w2 = member_step (members (d_log w2)) (Ret c e) ->
    NoDup (d_obs w2) ->
    d_ver w2 = (changes (d_log w2) + if changed (Ret c e : ev V) then 1 else 0)%nat ->
    dgood (d_log w2 ++ [Ret c e]) ->
    dext w (demit (release locking w2) (Ret c e)) /\
    d_log (demit (release locking w2) (Ret c e)) = d_log w ++ evs ++ [Ret c e].
  Proof.
    intros I HU HLk HL HO HN HV HG.
    assert (EL : d_log (demit (release locking w2) (Ret c e)) = d_log w2 ++ [Ret c e]).
    { unfold release. destruct locking; reflexivity. }
    assert (EO : d_obs (demit (release locking w2) (Ret c e)) = d_obs w2).
    { unfold release. destruct locking; reflexivity. }
    assert (EV : d_ver (demit (release locking w2) (Ret c e)) = d_ver w2).
    { unfold release. destruct locking; reflexivity. }
    split; [|rewrite EL, HL, <- app_assoc; reflexivity].
    split.
    - split; rewrite ?EL, ?EO, ?EV, ?members_snoc, ?changes_snoc; try assumption. congruence.
    - unfold release. destruct locking; cbn; [symmetry; apply HU; reflexivity|exact HLk].
    - exists (evs ++ [Ret c e]). rewrite EL, HL, app_assoc. reflexivity.
  Qed.

  Lemma drun_post f : forall w c w' e, dinv w -> drun f w c = Ok (w', e) -> dpost w c w' e.
  Proof.
    induction f as [|f IH]; intros w c w' e I E; [discriminate|].
    assert (HS : forall w c w' e, dinv w -> drun f w c = Ok (w', e) -> dext w w').
    { intros w0 c0 w0' e0 I0 E0. exact (proj1 (IH w0 c0 w0' e0 I0 E0)). }
    cbn [ObserverModel.drun] in E.
    destruct (acquire_cases w) as [EA|(w1 & EA & HU)]; rewrite EA in E; cbn [bind] in E; [discriminate|].
    destruct (acquire_ok w w1 I HU EA) as (I1 & O1 & V1 & L1 & K1).
    destruct c as [o|o| |v].
    - rewrite dcontains_spec in E. rewrite O1, (di_obs _ I) in E.
      set (l := members (d_log w)) in *.
      destruct (in_dec Pos.eq_dec o l) as [H|H]; cbn [negb bind] in E; inversion E; subst w' e.
      + destruct (finish w w1 (Add o) already_contains [] I HU K1) as [F1 F2].
        * rewrite L1, app_nil_r. reflexivity.
        * rewrite O1, L1. cbn. apply (di_obs _ I).
        * rewrite O1, (di_obs _ I). apply (di_nodup _ I).
        * rewrite V1, L1. cbn. rewrite Nat.add_0_r. apply (di_ver _ I).
        * rewrite L1. replace already_contains with (dadd_answer (members (d_log w)) o).
          { constructor. apply (di_good _ I). }
          unfold dadd_answer. fold l. destruct (in_dec Pos.eq_dec o l); [reflexivity|contradiction].
        * split; [exact F1|]. exists []. split; [exact F2|]. split; [reflexivity|].
          unfold dadd_answer. fold l. destruct (in_dec Pos.eq_dec o l); [reflexivity|contradiction].
      + destruct (finish w (DW (l ++ [o]) (S (d_ver w1)) (d_locked w1) (d_log w1)) (Add o) ok [] I HU K1) as [F1 F2];
          cbn [d_log d_obs d_ver].
        * rewrite L1, app_nil_r. reflexivity.
        * rewrite L1. reflexivity.
        * apply NoDup_snoc; [apply (di_nodup _ I)|exact H].
        * rewrite V1, L1. cbn. rewrite (di_ver _ I). lia.
        * rewrite L1. replace ok with (dadd_answer (members (d_log w)) o).
          { constructor. apply (di_good _ I). }
          unfold dadd_answer. fold l. destruct (in_dec Pos.eq_dec o l); [contradiction|reflexivity].
        * split; [exact F1|]. exists []. split; [exact F2|]. split; [reflexivity|].
          unfold dadd_answer. fold l. destruct (in_dec Pos.eq_dec o l); [contradiction|reflexivity].
    - rewrite filter_remove in E. rewrite O1, (di_obs _ I) in E.
      set (l := members (d_log w)) in *.
      destruct (in_dec Pos.eq_dec o l) as [H|H].
      + pose proof (remove_length_lt Pos.eq_dec l o H) as HLt.
        replace (length l - length (remove Pos.eq_dec o l) =? 0)%nat with false in E by lia.
        cbn [bind] in E; inversion E; subst w' e.
        destruct (finish w (DW (remove Pos.eq_dec o l) (S (d_ver w1)) (d_locked w1) (d_log w1)) (Remove o) ok [] I HU K1) as [F1 F2];
          cbn [d_log d_obs d_ver].
        * rewrite L1, app_nil_r. reflexivity.
        * rewrite L1. reflexivity.
        * apply NoDup_remove_all. apply (di_nodup _ I).
        * rewrite V1, L1. cbn. rewrite (di_ver _ I). lia.
        * rewrite L1. replace ok with (remove_answer (members (d_log w)) o).
          { constructor. apply (di_good _ I). }
          unfold remove_answer. fold l. destruct (in_dec Pos.eq_dec o l); [reflexivity|contradiction].
        * split; [exact F1|]. exists []. split; [exact F2|]. split; [reflexivity|].
          unfold remove_answer. fold l. destruct (in_dec Pos.eq_dec o l); [reflexivity|contradiction].
      + rewrite remove_notin in E by exact H. rewrite Nat.sub_diag in E. cbn [Nat.eqb bind] in E.
        inversion E; subst w' e.
        destruct (finish w w1 (Remove o) not_found [] I HU K1) as [F1 F2].
        * rewrite L1, app_nil_r. reflexivity.
        * rewrite O1, L1. cbn. apply (di_obs _ I).
        * rewrite O1, (di_obs _ I). apply (di_nodup _ I).
        * rewrite V1, L1. cbn. rewrite Nat.add_0_r. apply (di_ver _ I).
        * rewrite L1. replace not_found with (remove_answer (members (d_log w)) o).
          { constructor. apply (di_good _ I). }
          unfold remove_answer. fold l. destruct (in_dec Pos.eq_dec o l); [contradiction|reflexivity].
        * split; [exact F1|]. exists []. split; [exact F2|]. split; [reflexivity|].
          unfold remove_answer. fold l. destruct (in_dec Pos.eq_dec o l); [contradiction|reflexivity].
    - destruct (dloop (dround on_disc (Disc self) (drun f)) (d_obs w1) w1) as [w2| |] eqn:EL;
        cbn [bind] in E; try discriminate.
      inversion E; subst w' e.
      destruct (dloop_ext f on_disc (Disc self) HS (fun p => or_introl eq_refl) _ w1 w2 I1 (incl_refl _) EL)
        as (X & O2 & V2).
      destruct X as [I2 K2 [evs L2]].
      destruct (finish w (DW [] (S (d_ver w2)) (d_locked w2) (d_log w2)) Clear ok evs I HU) as [F1 F2];
        cbn [d_log d_obs d_ver d_locked].
      + congruence.
      + rewrite L2, L1. reflexivity.
      + reflexivity.
      + constructor.
      + cbn. rewrite (di_ver _ I2). lia.
      + constructor. apply (di_good _ I2).
      + split; [exact F1|]. exists evs. split; [exact F2|]. split; [reflexivity|].
        apply (no_change (d_log w1)). rewrite <- L2, <- (di_ver _ I2), V2. apply (di_ver _ I1).
    - destruct (dloop (dround (fun log p => on_data log p v) (fun p => Data self p v) (drun f)) (d_obs w1) w1)
        as [w2| |] eqn:EL; cbn [bind] in E; try discriminate.
      inversion E; subst w' e.
      destruct (dloop_ext f (fun log p => on_data log p v) (fun p => Data self p v) HS
                  (fun p => or_intror (ex_intro _ v eq_refl)) _ w1 w2 I1 (incl_refl _) EL)
        as (X & O2 & V2).
      destruct X as [I2 K2 [evs L2]].
      destruct (finish w w2 (Notify v) ok evs I HU) as [F1 F2].
      + congruence.
      + rewrite L2, L1. reflexivity.
      + apply (di_obs _ I2).
      + rewrite (di_obs _ I2). apply (di_nodup _ I2).
      + cbn. rewrite (di_ver _ I2). lia.
      + constructor. apply (di_good _ I2).
      + split; [exact F1|]. exists evs. split; [exact F2|]. split; [reflexivity|].
        apply (no_change (d_log w1)). rewrite <- L2, <- (di_ver _ I2), V2. apply (di_ver _ I1).
  Qed.

  Lemma dreach_inv w : dreaches self locking on_data on_disc w -> dinv w /\ d_locked w = false.
  Proof.
    intros (f & l & E).
    assert (G : forall l w0, dinv w0 -> d_locked w0 = false ->
              drun_all self locking on_data on_disc f w0 l = Ok w -> dinv w /\ d_locked w = false).
    { clear l E. induction l as [|c l IH]; intros w0 I J E; cbn [drun_all] in E.
      - inversion E; subst. tauto.
      - destruct (drun f w0 c) as [[w1 e]| |] eqn:E1; cbn [bind] in E; try discriminate.
        destruct (drun_post f w0 c w1 e I E1) as [[X1 X2 _] _].
        apply (IH w1); [exact X1|congruence|exact E]. }
    apply (G l dfresh); [apply dinv_fresh|reflexivity|exact E].
  Qed.

  Ltac dgood_ind H :=
    induction H as [|log o0 H IH|log o0 H IH|log H IH|log v0 H IH|log o0 v0 H IH W0|log o0 H IH W0];
    intros; [match goal with E : [] = ?p ++ _ |- _ => destruct p; discriminate E end|..];
    match goal with E : _ = _ ++ _ |- _ =>
      apply snoc_split in E; destruct E as [(E1 & E2 & E3)|(q' & E1 & E2)];
      [try discriminate E3; inversion E3; subst; try reflexivity; try assumption|eapply IH; exact E2]
    end.

  Lemma dgood_add_answer (log : list (ev V)) : dgood log -> forall p o e q,
    log = p ++ Ret (Add o) e :: q -> e = dadd_answer (members p) o.
  Proof. intros H. dgood_ind H. Qed.

  Lemma dgood_remove_answer (log : list (ev V)) : dgood log -> forall p o e q,
    log = p ++ Ret (Remove o) e :: q -> e = remove_answer (members p) o.
  Proof. intros H. dgood_ind H. Qed.

  Lemma dgood_data_member (log : list (ev V)) : dgood log -> forall p src o v q,
    log = p ++ Data src o v :: q -> src = self /\ In o (members p).
  Proof. intros H. dgood_ind H; auto. Qed.

  (** Quiet callbacks. *)
  Lemma dquiet_loop step cb mk l : (forall log p, cb log p = Return) -> forall w : dworld V,
    dloop (dround cb mk step) l w = Ok (DW (d_obs w) (d_ver w) (d_locked w) (d_log w ++ map mk l)).
  Proof.
    intros Q. induction l as [|p l IH]; intros w; cbn [dloop].
    - cbn. rewrite app_nil_r. destruct w; reflexivity.
    - unfold dround at 1. rewrite Q. cbn [drun_body bind demit d_ver]. rewrite Nat.eqb_refl. cbn [bind].
      rewrite IH. cbn [demit d_obs d_ver d_locked d_log map]. rewrite <- app_assoc. reflexivity.
  Qed.

  Lemma acquire_free (w : dworld V) : d_locked w = false ->
    acquire locking w = Ok (DW (d_obs w) (d_ver w) locking (d_log w)).
  Proof.
    intros H. unfold acquire. rewrite H. destruct locking; [reflexivity|].
    destruct w; cbn in *; subst; reflexivity.
  Qed.

  Lemma dquiet_notify f w v : (forall log o v, on_data log o v = Return) -> dinv w -> d_locked w = false ->
    exists w', drun (S f) w (Notify v) = Ok (w', ok) /\
      d_log w' = d_log w ++ map (fun o => Data self o v) (members (d_log w)) ++ [Ret (Notify v) ok].
  Proof.
    intros Q I J. cbn [ObserverModel.drun]. rewrite (acquire_free w J). cbn [bind].
    rewrite dquiet_loop by (intros; apply Q). cbn [bind d_obs d_log].
    eexists. split; [reflexivity|]. unfold release. rewrite (di_obs _ I).
    destruct locking; cbn; rewrite <- app_assoc; reflexivity.
  Qed.

  Lemma dquiet_clear f w : (forall log o, on_disc log o = Return) -> dinv w -> d_locked w = false ->
    exists w', drun (S f) w Clear = Ok (w', ok) /\
      d_log w' = d_log w ++ map (Disc self) (members (d_log w)) ++ [Ret Clear ok].
  Proof.
    intros Q I J. cbn [ObserverModel.drun]. rewrite (acquire_free w J). cbn [bind].
    rewrite dquiet_loop by (intros; apply Q). cbn [bind d_obs d_log].
    eexists. split; [reflexivity|]. unfold release. rewrite (di_obs _ I).
    destruct locking; cbn; rewrite <- app_assoc; reflexivity.
  Qed.

  Lemma dsimple_done f w c : d_locked w = false -> (exists o, c = Add o \/ c = Remove o) ->
    exists w' e, drun (S f) w c = Ok (w', e).
  Proof.
    intros J [o HC]. cbn [ObserverModel.drun]. rewrite (acquire_free w J). cbn [bind].
    destruct HC as [-> | ->].
    - destruct (dcontains (d_obs (DW (d_obs w) (d_ver w) locking (d_log w))) o);
        cbn [negb bind]; eexists; eexists; reflexivity.
    - destruct (length _ - length _ =? 0)%nat; cbn [bind]; eexists; eexists; reflexivity.
  Qed.
End Dyn.

(** ** reentrancy *)
Section Reent.
  Context {V : Type}.
  Variable self : addr.
  Variable on_data : list (ev V) -> addr -> V -> body V.
  Variable on_disc : list (ev V) -> addr -> body V.

  (** Under the lock a call made from a callback does not come back. *)
  Lemma locked_round cb mk f p w :
    d_locked w = true ->
    (cb (d_log w) p = Return /\
     dround cb mk (drun self true on_data on_disc f) p w = Ok (demit w (mk p))) \/
    (cb (d_log w) p <> Return /\
     dround cb mk (drun self true on_data on_disc f) p w = match f with O => Fuel | S _ => UB end).
  Proof.
    intros L. unfold dround. destruct (cb (d_log w) p) as [|c k].
    - left. split; [reflexivity|]. cbn [drun_body bind demit d_ver]. rewrite Nat.eqb_refl. reflexivity.
    - right. split; [discriminate|]. cbn [drun_body].
      destruct f as [|f]; [reflexivity|]. cbn [drun]. unfold acquire, demit. cbn [d_locked]. rewrite L. reflexivity.
  Qed.

  Lemma locked_loop cb mk f l : forall w, d_locked w = true ->
    (exists o, In o l /\ forall log, cb log o <> Return) ->
    dloop (dround cb mk (drun self true on_data on_disc f)) l w = match f with O => Fuel | S _ => UB end.
  Proof.
    induction l as [|p l IH]; intros w L (o & Ho & HN); [destruct Ho|].
    cbn [dloop]. destruct (locked_round cb mk f p w L) as [[E1 E2]|[E1 E2]]; rewrite E2; cbn [bind].
    - destruct Ho as [->|Ho]; [exfalso; eapply HN; exact E1|].
      apply IH; [exact L|]. exists o. tauto.
    - destruct f; reflexivity.
  Qed.

  Lemma locked_notify f w v : dinv self w -> d_locked w = false ->
    (exists o, In o (members (d_log w)) /\ forall log, on_data log o v <> Return) ->
    drun self true on_data on_disc (S f) w (Notify v) = match f with O => Fuel | S _ => UB end.
  Proof.
    intros I J H. cbn [drun]. rewrite (acquire_free _ w J). cbn [bind d_obs].
    rewrite locked_loop; [destruct f; reflexivity|reflexivity|].
    rewrite (di_obs _ _ I). exact H.
  Qed.

  Lemma locked_clear f w : dinv self w -> d_locked w = false ->
    (exists o, In o (members (d_log w)) /\ forall log, on_disc log o <> Return) ->
    drun self true on_data on_disc (S f) w Clear = match f with O => Fuel | S _ => UB end.
  Proof.
    intros I J H. cbn [drun]. rewrite (acquire_free _ w J). cbn [bind d_obs].
    rewrite locked_loop; [destruct f; reflexivity|reflexivity|].
    rewrite (di_obs _ _ I). exact H.
  Qed.

  (** Without the lock, renotifying from every callback never ends. *)
  Lemma renotify_diverges : 
    (forall log o v, exists v' k, on_data log o v = Do (Notify v') k) ->
    forall f w v, d_obs w <> [] -> drun self false on_data on_disc f w (Notify v) = Fuel.
  Proof.
    intros H. induction f as [|f IH]; intros w v HN; [reflexivity|].
    cbn [drun acquire bind]. destruct (d_obs w) as [|p l] eqn:EO; [congruence|]. cbn [dloop].
    unfold dround at 1. destruct (H (d_log w) p v) as (v' & k & HK). rewrite HK. cbn [drun_body].
    rewrite IH; [reflexivity|]. cbn [demit d_obs]. rewrite EO. discriminate.
  Qed.
End Reent.

(** ** compile-time chain *)
Fixpoint chain_list (c : chain) : list addr :=
  match c with Last o _ => [o] | Link o n => o :: chain_list n end.

Lemma construct_list r os : forall o, chain_list (construct r o os) = o :: os /\ root (construct r o os) = r.
Proof.
  induction os as [|x os IH]; intros o; cbn; [tauto|]. destruct (IH x) as [H1 H2]. rewrite H1, H2. tauto.
Qed.

Lemma chain_notify_fold {U D} (deliver : U -> addr -> addr -> D -> U) c d : forall u,
  chain_notify deliver u c d = fold_left (fun u o => deliver u (root c) o d) (chain_list c) u.
Proof. induction c as [o r|o n IH]; intros u; cbn; [reflexivity|]. apply IH. Qed.
