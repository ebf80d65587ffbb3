(** Callbacks that neither create nor destroy: definedness, termination, forwarding. *)
From Verif Require Export ObsNetProofs.

Section Plain.
  Context {V : Type}.
  Variable Max : addr -> Z.
  Variable on_data : list (nev V) -> addr -> addr -> V -> nbody V.
  Variable on_disc : list (nev V) -> addr -> addr -> nbody V.
  Notation cap s := (max_observers (Max s)).
  Notation nrun := (nrun Max on_data on_disc).
  Notation ninv := (@ninv V Max).

  (** The first [n] slots are not null. *)
  Definition full (x : cell) (n : nat) : Prop := exists l t, k_slots x = map Some l ++ t /\ length l = n.

  Record ext (w w' : net V) : Prop := {
    e_inv : ninv w';
    e_log : exists evs, n_log w' = n_log w ++ evs;
    e_live : living (n_log w') = living (n_log w);
    e_shut : forall s, shut (n_log w') s = shut (n_log w) s;
    e_full : forall s x n, n_cell w s = Some x -> full x n -> exists x', n_cell w' s = Some x' /\ full x' n
  }.
  Lemma ext_refl w : ninv w -> ext w w.
  Proof.
    intros I. split; auto; [exists []; rewrite app_nil_r; reflexivity|]. intros s x n H F. exists x. auto.
  Qed.
  Lemma ext_trans a b c : ext a b -> ext b c -> ext a c.
  Proof.
    intros [A1 (ea & A2) A3 A4 A5] [B1 (eb & B2) B3 B4 B5]. split.
    - exact B1.
    - exists (ea ++ eb). rewrite B2, A2, app_assoc. reflexivity.
    - congruence.
    - intros s. rewrite B4. apply A4.
    - intros s x n H F. destruct (A5 s x n H F) as (y & HY & FY). apply (B5 s y n HY FY).
  Qed.

  Lemma live_cell w s : ninv w -> In s (living (n_log w)) -> exists x, n_cell w s = Some x.
  Proof. intros I H. apply (n_live _ w I) in H. destruct (n_cell w s) as [x|]; [exists x; reflexivity|congruence]. Qed.

  Lemma full_slot w s x n i : ninv w -> n_cell w s = Some x -> full x n -> (i < n)%nat ->
    exists o, slot (k_slots x) i = Ok (Some o) /\ added (n_log w) o.
  Proof.
    intros I A (l & t & N1 & N2) L.
    destruct (nth_error l i) as [o|] eqn:E; [|apply nth_error_None in E; lia].
    assert (ES : nth_error (k_slots x) i = Some (Some o)).
    { rewrite N1, nth_error_app1 by (rewrite map_length; lia). apply map_nth_error. exact E. }
    exists o. unfold slot. rewrite ES. split; [reflexivity|].
    apply (c_added _ _ _ _ (n_ok _ w I s x A)). eapply nth_error_In. exact ES.
  Qed.
  Lemma full_cnt (log : list (nev V)) s x : cok Max log s x -> full x (k_cnt x).
  Proof. intros [H1 [t H2] H3 _ _ _]. exists (registered log s), t. auto. Qed.

  Lemma full_add (log : list (nev V)) s x o a m r n : cok Max log s x ->
    add_observer (Max s) (k_slots x) (k_cnt x) o = Ok (a, m, r) -> full x n -> full (Cell a m (k_inside x)) n.
  Proof.
    intros [H1 [t H2] H3 H4 H5 H6] E (l0 & t0 & N1 & N2). set (l := registered log s) in *.
    destruct (add_repr (Max s) l t o) as (t' & E1 & E2 & E3); [rewrite <- H2; exact H1|].
    rewrite H2, H3, E1 in E. inversion E; subst a m r. clear E. unfold full. cbn [k_slots].
    set (r := add_answer (cap s) l o) in *.
    destruct r eqn:Er; try (rewrite <- (E3 ltac:(discriminate)), <- H2; exists l0, t0; split; assumption).
    destruct (E2 eq_refl) as [y Ey]. subst t. rewrite H2 in N1.
    destruct (Nat.le_gt_cases n (length l)) as [L|L].
    - exists (firstn n l), (map Some (skipn n l) ++ Some o :: t'). split.
      + rewrite app_assoc, <- map_app, firstn_skipn, map_app, <- app_assoc. reflexivity.
      + rewrite firstn_length. lia.
    - exists (l ++ o :: skipn (S (length l)) l0), t0. split.
      + rewrite !map_app. cbn [map]. rewrite <- !app_assoc. cbn [app]. f_equal. f_equal.
        assert (N3 : skipn (S (length l)) (map Some l ++ y :: t')
                     = skipn (S (length l)) (map Some l0 ++ t0)) by (rewrite N1; reflexivity).
        rewrite !skipn_app, !map_length in N3.
        rewrite (skipn_all2 (map Some l)) in N3 by (rewrite map_length; lia).
        replace (S (length l) - length l)%nat with 1%nat in N3 by lia.
        replace (S (length l) - length l0)%nat with 0%nat in N3 by lia.
        rewrite skipn_map in N3. exact N3.
      + rewrite app_length. cbn [length]. rewrite skipn_length. lia.
  Qed.
  Lemma full_remove (log : list (nev V)) s x o a m r n : cok Max log s x ->
    remove_observer (Max s) (k_slots x) (k_cnt x) o = Ok (a, m, r) -> full x n -> full (Cell a m (k_inside x)) n.
  Proof.
    intros C E (l0 & t0 & N1 & N2). pose proof (cok_le _ log s x C) as HLE. destruct C as [H1 [t H2] H3 H4 H5 H6].
    set (l := registered log s) in *. destruct (remove_repr (Max s) l t o) as (g & E1 & E2 & E3); [lia|].
    rewrite H2, H3, E1 in E. inversion E; subst a m r. clear E. unfold full. cbn [k_slots].
    assert (LG : length (remove Pos.eq_dec o l ++ g) = length l) by (rewrite app_length; lia).
    destruct (Nat.le_gt_cases n (length l)) as [L|L].
    - set (mm := remove Pos.eq_dec o l ++ g) in *.
      exists (firstn n mm), (map Some (skipn n mm) ++ t). split.
      + rewrite app_assoc, <- map_app, firstn_skipn. reflexivity.
      + rewrite firstn_length. lia.
    - exists ((remove Pos.eq_dec o l ++ g) ++ skipn (length l) l0), t0. split.
      + rewrite (map_app Some (remove Pos.eq_dec o l ++ g)), <- (app_assoc (map Some _)). f_equal.
        assert (N3 : skipn (length l) (map Some l ++ t) = skipn (length l) (map Some l0 ++ t0))
          by (rewrite <- H2, N1; reflexivity).
        rewrite !skipn_app, !map_length in N3.
        rewrite (skipn_all2 (map Some l)) in N3 by (rewrite map_length; lia).
        rewrite Nat.sub_diag in N3. replace (length l - length l0)%nat with 0%nat in N3 by lia.
        rewrite skipn_map in N3. exact N3.
      + rewrite app_length, skipn_length. lia.
  Qed.

  (** Idle observables: alive and open. *)
  Definition idle (log : list (nev V)) : nat := length (filter (fun s => negb (shut log s)) (living log)).
  Lemma idle_ext w w' : ext w w' -> idle (n_log w') = idle (n_log w).
  Proof.
    intros X. unfold idle. rewrite (e_live _ _ X). f_equal. apply filter_ext. intros s. rewrite (e_shut _ _ X). reflexivity.
  Qed.
  Lemma idle_enter log s v : In s (living log) -> NoDup (living log) -> shut log s = false ->
    S (idle (log ++ [NEnter s v])) = idle log.
  Proof.
    intros H N F. unfold idle. rewrite living_snoc, shut_snoc. cbn [live_step shut_step].
    assert (O : forall l, ~ In s l -> filter (fun a => negb (setm (shut log) s true a)) l = filter (fun a => negb (shut log a)) l).
    { induction l as [|a l IH]; intros NI; [reflexivity|]. cbn [filter]. rewrite setm_other by (cbn in NI; intuition congruence).
      rewrite IH by (cbn in NI; tauto). reflexivity. }
    revert H N. generalize (living log) as l. induction l as [|a l IH]; [intros []|].
    intros [->|H] N; inversion N as [|? ? N1 N2]; subst; cbn [filter].
    - rewrite setm_same, F. cbn [negb length]. rewrite O by exact N1. reflexivity.
    - assert (a <> s) by congruence. rewrite setm_other by assumption.
      destruct (shut log a); cbn [negb length]; rewrite IH by assumption; reflexivity.
  Qed.
  Lemma idle_le log : (idle log <= length (living log))%nat.
  Proof. unfold idle. induction (living log) as [|a l IH]; cbn; [lia|]. destruct (shut log a); cbn; lia. Qed.

  (** The setting: callbacks use observables that exist and leave lifetimes alone. *)
  Variable LV : list addr.
  Hypothesis PD : forall log s o v, living log = LV -> plain LV (on_data log s o v).
  Hypothesis PC : forall log s o, living log = LV -> plain LV (on_disc log s o).

  Definition allowed (w : net V) (c : ncall V) : Prop := exists s, target c = Some s /\ In s (living (n_log w)).
  (** Defined, and ended unless [f] is too small. *)
  Definition fine {A} (P : A -> Prop) (x : res A) : Prop := match x with Ok a => P a | UB => False | Fuel => True end.
  Definition done {A} (P : A -> Prop) (x : res A) : Prop := match x with Ok a => P a | _ => False end.

  (** One generic run of the argument: [M] is [fine] or [done]. *)
  Section Generic.
    Variable halts : bool.
    Definition must {A} (P : A -> Prop) (x : res A) : Prop := if halts then done P x else fine P x.
    Lemma must_ok {A} (P : A -> Prop) a : P a -> must P (Ok a).
    Proof. unfold must. destruct halts; auto. Qed.
    Lemma must_bind {A B} (P : A -> Prop) (Q : B -> Prop) (x : res A) (k : A -> res B) :
      must P x -> (forall a, P a -> must Q (k a)) -> must Q (bind x k).
    Proof. intros H K. unfold must, done, fine in *. destruct halts, x; cbn [bind]; try contradiction; try exact Logic.I; exact (K _ H). Qed.

    Variable step : net V -> ncall V -> res (net V * err).
    Variable can : net V -> ncall V -> Prop.    (* the calls [step] can deal with *)
    Hypothesis can_ext : forall w w' c, ext w w' -> can w c -> can w' c.
    Hypothesis step_must : forall w c, ninv w -> living (n_log w) = LV -> allowed w c -> can w c -> must (fun p => ext w (fst p)) (step w c).

    (** Bodies all of whose calls can be dealt with. *)
    Inductive canb (w : net V) : nbody V -> Prop :=
    | canb_return : canb w NReturn
    | canb_do c k : can w c -> (forall e, canb w (k e)) -> canb w (NDo c k).
    Lemma canb_ext w w' b : ext w w' -> canb w b -> canb w' b.
    Proof. intros X. induction 1; constructor; eauto. Qed.

    Lemma body_must b : forall w, ninv w -> living (n_log w) = LV -> plain LV b -> canb w b ->
      must (ext w) (nrun_body step b w).
    Proof.
      induction b as [|c k IH]; intros w I LW P C; cbn [nrun_body].
      - apply must_ok, ext_refl, I.
      - inversion_clear P as [|? s ? T L K]. inversion_clear C as [|? ? C1 C2].
        eapply must_bind; [apply (step_must w c I LW); [exists s; rewrite LW; auto|exact C1]|]. intros [w' e] X. cbn [fst] in X.
        assert (Q : must (ext w') (nrun_body step (k e) w')).
        { apply IH; [apply X|rewrite (e_live _ _ X); exact LW|apply K|eapply canb_ext; [exact X|apply C2]]. }
        unfold must, done, fine in *. destruct halts, (nrun_body step (k e) w'); auto; eapply ext_trans; eassumption.
    Qed.
    Lemma round_must mk cb s n i w x :
      (forall o, (exists s, mk o = NDisc s o) \/ (exists s v, mk o = NData s o v)) ->
      (forall log o, living log = LV -> plain LV (cb log o)) ->
      (forall w' log o, ext w w' -> canb w' (cb log o)) ->
      ninv w -> living (n_log w) = LV -> n_cell w s = Some x -> full x n -> (i < n)%nat -> must (ext w) (nround mk cb step s i w).
    Proof.
      intros MK PL CB I LW A F L. unfold nround. assert (A' : at_ w s = Ok x) by (apply at_ok, A). rewrite A'. cbn [bind].
      destruct (full_slot w s x n i I A F L) as (o & S1 & S2). rewrite S1. cbn [bind].
      pose proof (ninv_entry Max w (mk o) o I S2 (MK o)) as I1.
      assert (X : ext w (note w (mk o))).
      { split; auto; unfold note; cbn [n_log n_cell].
        - eexists. reflexivity.
        - rewrite living_snoc. destruct (MK o) as [(z & ->)|(z & v & ->)]; reflexivity.
        - intros z. rewrite shut_snoc. destruct (MK o) as [(y & ->)|(y & v & ->)]; reflexivity.
        - intros z y m H G. exists y. auto. }
      assert (Q : must (ext (note w (mk o))) (nrun_body step (cb (n_log w) o) (note w (mk o)))).
      { apply body_must; [exact I1| | |].
        - rewrite (e_live _ _ X). exact LW.
        - apply PL, LW.
        - eapply CB. exact X. }
      unfold must, done, fine in *. destruct halts, (nrun_body _ _ _); auto; eapply ext_trans; eassumption.
    Qed.
    Lemma loop_must mk cb s n :
      (forall o, (exists s, mk o = NDisc s o) \/ (exists s v, mk o = NData s o v)) ->
      (forall log o, living log = LV -> plain LV (cb log o)) ->
      forall k i w x, (forall w' log o, ext w w' -> canb w' (cb log o)) ->
      ninv w -> living (n_log w) = LV -> n_cell w s = Some x -> full x n -> (i + k <= n)%nat ->
      must (ext w) (nloop (nround mk cb step s) i k w).
    Proof.
      intros MK PL. induction k as [|k IH]; intros i w x CB I LW A F L; cbn [nloop].
      - apply must_ok, ext_refl, I.
      - eapply must_bind; [eapply round_must; eauto; lia|]. intros w' X.
        destruct (e_full _ _ X s x n A F) as (x' & A' & F').
        assert (Q : must (ext w') (nloop (nround mk cb step s) (S i) k w')).
        { eapply IH; eauto; [|apply X|rewrite (e_live _ _ X); exact LW|lia]. intros w2 log o X2. apply CB. eapply ext_trans; eassumption. }
        unfold must, done, fine in *. destruct halts, (nloop _ _ _ _); auto; eapply ext_trans; eassumption.
    Qed.
    Lemma clear_must s w : (forall w' log o, ext w w' -> canb w' (on_disc log s o)) ->
      ninv w -> living (n_log w) = LV -> In s (living (n_log w)) ->
      must (fun w' => exists w1 x1, ext w w1 /\ n_cell w1 s = Some x1 /\
              w' = place w1 s (Some (Cell (k_slots x1) 0 (k_inside x1)))) (nclear on_disc step s w).
    Proof.
      intros CB I LW L. destruct (live_cell w s I L) as (x & A). unfold nclear.
      assert (A' : at_ w s = Ok x) by (apply at_ok, A). rewrite A'. cbn [bind].
      eapply must_bind.
      - eapply (loop_must (NDisc s) (fun log o => on_disc log s o) s (k_cnt x)); eauto.
        eapply full_cnt. apply (n_ok _ w I s x A).
      - intros w1 X. destruct (e_full _ _ X s x _ A (full_cnt _ _ _ (n_ok _ w I s x A))) as (x1 & A1 & _).
        assert (A1' : at_ w1 s = Ok x1) by (apply at_ok, A1). rewrite A1'. cbn [bind]. apply must_ok.
        exists w1, x1. auto.
    Qed.
  End Generic.

  (** Putting a cell in place of another and logging, as an extension. *)
  Lemma ext_put w s x y e : ninv (note (place w s (Some y)) e) -> n_cell w s = Some x ->
    living (n_log w ++ [e]) = living (n_log w) -> (forall a, shut (n_log w ++ [e]) a = shut (n_log w) a) ->
    (forall n, full x n -> full y n) -> ext w (note (place w s (Some y)) e).
  Proof.
    intros I A L S F. split; auto; unfold note, place; cbn [n_log n_cell].
    - eexists. reflexivity.
    - intros a z n H G. destruct (Pos.eqb_spec a s) as [->|N]; [|exists z; auto].
      exists y. split; [reflexivity|]. apply F. congruence.
  Qed.

  (** The step function on one more unit of fuel, given what it does with one less. *)
  Lemma nrun_must halts f (can : net V -> ncall V -> Prop) w c :
    (forall w w' c, ext w w' -> can w c -> can w' c) ->
    (forall w c, ninv w -> living (n_log w) = LV -> allowed w c -> can w c -> must halts (fun p => ext w (fst p)) (nrun f w c)) ->
    (forall s v, c = NNotify s v -> shut (n_log w) s = false -> forall w' log o,
       ext (note (place w s (match n_cell w s with Some x => Some (Cell (k_slots x) (k_cnt x) true) | None => None end)) (NEnter s v)) w' ->
       canb can w' (on_data log s o v)) ->
    (forall s, c = NClear s -> forall w' log o, ext w w' -> canb can w' (on_disc log s o)) ->
    ninv w -> living (n_log w) = LV -> allowed w c -> must halts (fun p => ext w (fst p)) (nrun (S f) w c).
  Proof.
    intros CE SM CD CC I LW (s & T & L). destruct (live_cell w s I L) as (x & A).
    assert (A' : at_ w s = Ok x) by (apply at_ok, A). pose proof (n_ok _ w I s x A) as CK.
    assert (G : forall w' e, nrun (S f) w c = Ok (w', e) -> ninv w').
    { intros w' e E. apply (nrun_grows Max on_data on_disc (S f) w c w' e I E). }
    destruct c as [z|a z|a z|z|z o|z o|z|z v]; cbn [target] in T; inversion T; subst z; clear T; cbn [ObsNetModel.nrun] in *.
    - rewrite A' in *. cbn [bind] in *.
      destruct (add_observer (Max s) (k_slots x) (k_cnt x) o) as [[[a n] r]| |] eqn:AD.
      + cbn [bind] in *. apply must_ok. cbn [fst]. eapply ext_put; [apply (G _ _ eq_refl)|exact A| | |].
        * rewrite living_snoc. reflexivity.
        * intros b. rewrite shut_snoc. reflexivity.
        * intros m. eapply full_add; eassumption.
      + exfalso. destruct CK as [H1 [t H2] H3 _ _ _].
        destruct (add_repr (Max s) (registered (n_log w) s) t o) as (t2 & E1 & _); [rewrite <- H2; exact H1|]. rewrite H2, H3, E1 in AD. discriminate.
      + exfalso. destruct CK as [H1 [t H2] H3 _ _ _].
        destruct (add_repr (Max s) (registered (n_log w) s) t o) as (t2 & E1 & _); [rewrite <- H2; exact H1|]. rewrite H2, H3, E1 in AD. discriminate.
    - rewrite A' in *. cbn [bind] in *.
      destruct (remove_observer (Max s) (k_slots x) (k_cnt x) o) as [[[a n] r]| |] eqn:AD.
      + cbn [bind] in *. apply must_ok. cbn [fst]. eapply ext_put; [apply (G _ _ eq_refl)|exact A| | |].
        * rewrite living_snoc. reflexivity.
        * intros b. rewrite shut_snoc. reflexivity.
        * intros m. eapply full_remove; eassumption.
      + exfalso. pose proof (cok_le _ _ _ _ CK) as LE. destruct CK as [H1 [t H2] H3 _ _ _].
        destruct (remove_repr (Max s) (registered (n_log w) s) t o) as (t2 & E1 & _); [lia|]. rewrite H2, H3, E1 in AD. discriminate.
      + exfalso. pose proof (cok_le _ _ _ _ CK) as LE. destruct CK as [H1 [t H2] H3 _ _ _].
        destruct (remove_repr (Max s) (registered (n_log w) s) t o) as (t2 & E1 & _); [lia|]. rewrite H2, H3, E1 in AD. discriminate.
    - pose proof (clear_must halts (nrun f) can CE SM s w (CC s eq_refl) I LW L) as CM.
      destruct (nclear on_disc (nrun f) s w) as [w2| |] eqn:CL.
      + unfold must, done, fine in CM. assert (CM' : exists w1 x1, ext w w1 /\ n_cell w1 s = Some x1 /\ w2 = place w1 s (Some (Cell (k_slots x1) 0 (k_inside x1))))
          by (destruct halts; exact CM). clear CM. destruct CM' as (w1 & x1 & X & A1 & ->).
        cbn [bind] in *. apply must_ok. cbn [fst]. eapply ext_trans; [exact X|].
        eapply ext_put; [apply (G _ _ eq_refl)|exact A1| | |].
        * rewrite living_snoc. reflexivity.
        * intros b. rewrite shut_snoc. reflexivity.
        * intros m Q. exact Q.
      + unfold must, done, fine in CM. destruct halts; contradiction.
      + unfold must, done, fine in *. destruct halts; [contradiction|exact Logic.I].
    - rewrite A' in *. cbn [bind] in *. pose proof (cok_le _ _ _ _ CK) as LE.
      destruct (Nat.ltb_spec (cap s) (k_cnt x)) as [B|_]; [lia|].
      destruct (k_inside x) eqn:IN.
      + cbn [bind] in *. apply must_ok. cbn [fst]. split; try (apply (G _ _ eq_refl)); unfold note; cbn [n_log n_cell].
        * eexists. reflexivity.
        * rewrite living_snoc. reflexivity.
        * intros b. rewrite shut_snoc. reflexivity.
        * intros b y m H F. exists y. auto.
      + assert (SH : shut (n_log w) s = false) by (rewrite <- (c_inside _ _ _ _ CK); exact IN).
        specialize (CD s v eq_refl SH). rewrite A in CD.
        set (w0 := note (place w s (Some (Cell (k_slots x) (k_cnt x) true))) (NEnter s v)) in *.
        assert (I0 : ninv w0).
        { apply ninv_put; try assumption; try reflexivity.
          - rewrite A. discriminate.
          - intros z NZ. rewrite registered_snoc. reflexivity.
          - intros z NZ. rewrite shut_snoc. cbn [shut_step]. apply setm_other, NZ.
          - rewrite living_snoc. reflexivity.
          - destruct CK as [C1 C2 C3 C4 C5 C6]. split; cbn [k_slots k_cnt k_inside];
              rewrite ?registered_snoc, ?shut_snoc; cbn [reg_step shut_step]; rewrite ?setm_same; auto.
            intros z H. apply added_app, C6, H. }
        assert (LW0 : living (n_log w0) = LV).
        { unfold w0. cbn [note place n_log]. rewrite living_snoc. exact LW. }
        assert (A0 : n_cell w0 s = Some (Cell (k_slots x) (k_cnt x) true)).
        { unfold w0, note, place. cbn. rewrite Pos.eqb_refl. reflexivity. }
        assert (F0 : full (Cell (k_slots x) (k_cnt x) true) (k_cnt x)) by (exact (full_cnt _ _ _ CK)).
        pose proof (loop_must halts (nrun f) can CE SM (fun o => NData s o v) (fun log o => on_data log s o v) s (k_cnt x)
                      ltac:(intros o; right; exists s, v; reflexivity) ltac:(intros; apply PD; assumption)
                      (k_cnt x) 0 w0 _ CD I0 LW0 A0 F0 ltac:(lia)) as LM.
        destruct (nloop _ 0 (k_cnt x) w0) as [w1| |] eqn:LP.
        * unfold must, done, fine in LM. assert (X : ext w0 w1) by (destruct halts; exact LM). clear LM.
          destruct (e_full _ _ X s _ _ A0 F0) as (x1 & A1 & _).
          assert (A1' : at_ w1 s = Ok x1) by (apply at_ok, A1). cbn [bind] in *. rewrite A1' in *. cbn [bind] in *.
          apply must_ok. cbn [fst]. pose proof (G _ _ eq_refl) as IR. split; [exact IR| | | |].
          -- destruct (e_log _ _ X) as (evs & EL). exists (NEnter s v :: evs ++ [NRet (NNotify s v) ok]).
             unfold w0 in EL. cbn [note place n_log] in *. rewrite EL, <- !app_assoc. reflexivity.
          -- cbn [note place n_log]. rewrite living_snoc. cbn [live_step]. rewrite (e_live _ _ X). unfold w0.
             cbn [note place n_log]. rewrite living_snoc. reflexivity.
          -- intros b. cbn [note place n_log]. rewrite shut_snoc. cbn [shut_step].
             destruct (Pos.eq_dec b s) as [->|NB]; [rewrite setm_same; symmetry; exact SH|].
             rewrite setm_other by exact NB. rewrite (e_shut _ _ X). unfold w0. cbn [note place n_log].
             rewrite shut_snoc. cbn [shut_step]. apply setm_other, NB.
          -- intros b y m H F. cbn [note place n_cell]. destruct (Pos.eqb_spec b s) as [->|NB].
             ++ eexists. split; [reflexivity|]. rewrite A in H. inversion H; subst y.
                destruct (e_full _ _ X s _ m A0 F) as (x2 & A2 & F2). rewrite A1 in A2. inversion A2; subst x2. exact F2.
             ++ assert (H0 : n_cell w0 b = Some y).
                { unfold w0, note, place. cbn. destruct (Pos.eqb_spec b s); [congruence|exact H]. }
                exact (e_full _ _ X b y m H0 F).
        * unfold must, done, fine in LM. destruct halts; contradiction.
        * unfold must, done, fine in *. cbn [bind]. destruct halts; [contradiction|exact Logic.I].
  Qed.

  (** Never undefined. *)
  Lemma nrun_fine : forall f w c, ninv w -> living (n_log w) = LV -> allowed w c -> fine (fun p => ext w (fst p)) (nrun f w c).
  Proof.
    induction f as [|f IH]; intros w c I LW AL; [exact Logic.I|].
    assert (CB : forall w b, canb (fun _ _ => True) w b).
    { intros v b. induction b; constructor; auto. }
    apply (nrun_must false f (fun _ _ => True)); auto.
    intros w1 d I1 L1 A1 _. apply IH; assumption.
  Qed.

  Hypothesis NC : forall log s o, no_nclear (on_disc log s o).
  (** Always ended: twice the number of idle observables is enough. *)
  Lemma nrun_done : forall f w c, ninv w -> living (n_log w) = LV -> allowed w c ->
    (2 * idle (n_log w) + (match c with NClear _ => 2 | _ => 1 end) <= f)%nat -> done (fun p => ext w (fst p)) (nrun f w c).
  Proof.
    induction f as [|f IH]; intros w c I LW AL B; [destruct c; lia|].
    pose (can := fun (w : net V) (c : ncall V) => (2 * idle (n_log w) + (match c with NClear _ => 2 | _ => 1 end) <= f)%nat : Prop).
    apply (nrun_must true f can); auto.
    - intros w1 w2 d X. unfold can. rewrite (idle_ext _ _ X). auto.
    - intros s v -> SH w' log o X. destruct AL as (z & T & L). inversion T; subst z.
      pose proof (idle_ext _ _ X) as E. cbn [note place n_log] in E.
      pose proof (idle_enter (n_log w) s v L (n_nodup _ w I) SH) as E2.
      assert (K : forall b, canb can w' b).
      { induction b; constructor; auto. unfold can. rewrite E. destruct c; lia. }
      apply K.
    - intros s -> w' log o X. pose proof (idle_ext _ _ X) as E.
      generalize (NC log s o). generalize (on_disc log s o). intros b N. induction N as [|c k N1 _ IHk]; constructor; auto.
      unfold can. rewrite E. destruct c; try lia. exfalso. eapply N1. reflexivity.
  Qed.
End Plain.
