(** Invariant of a network of observables under arbitrary callbacks. *)
From Verif Require Export ObserverProofs1 ObsNetSpec.

Section Inv.
  Context {V : Type}.
  Variable Max : addr -> Z.
  Notation cap s := (max_observers (Max s)).

  Lemma registered_snoc (log : list (nev V)) e : registered (log ++ [e]) = reg_step (registered log) e.
  Proof. unfold registered. rewrite fold_left_app. reflexivity. Qed.
  Lemma shut_snoc (log : list (nev V)) e : shut (log ++ [e]) = shut_step (shut log) e.
  Proof. unfold shut. rewrite fold_left_app. reflexivity. Qed.
  Lemma living_snoc (log : list (nev V)) e : living (log ++ [e]) = live_step (living log) e.
  Proof. unfold living. rewrite fold_left_app. reflexivity. Qed.
  Lemma setm_same {A} (f : addr -> A) s x : setm f s x s = x.
  Proof. unfold setm. rewrite Pos.eqb_refl. reflexivity. Qed.
  Lemma setm_other {A} (f : addr -> A) s x a : a <> s -> setm f s x a = f a.
  Proof. unfold setm. intros N. destruct (Pos.eqb_spec a s); congruence. Qed.

  Definition added (log : list (nev V)) (o : addr) : Prop := exists s, In (NRet (NAdd s o) ok) log.
  Lemma added_app log evs o : added log o -> added (log ++ evs) o.
  Proof. intros (s & H). exists s. apply in_or_app. left. exact H. Qed.

  (** What the log says about the event [e] that follows [log]. *)
  Definition fits (log : list (nev V)) (e : nev V) : Prop :=
    match e with
    | NRet (NAdd s o) r => r = add_answer (cap s) (registered log s) o
    | NRet (NRemove s o) r => r = remove_answer (registered log s) o
    | NRet (NNotify s v) r =>
        r = ok /\ In (NEnter s v) log \/ r = notify_recursion_detected /\ shut log s = true
    | NRet (NMake s) r => r = ok /\ ~ In s (living log)
    | NRet (NCopy a s) r => r = ok /\ In a (living log) /\ ~ In s (living log)
    | NRet _ r => r = ok
    | NEnter s v => shut log s = false
    | NData s o v => added log o
    | NDisc s o => added log o
    end.
  Definition ngood (log : list (nev V)) : Prop := forall p e q, log = p ++ e :: q -> fits p e.
  Lemma ngood_snoc log e : ngood log -> fits log e -> ngood (log ++ [e]).
  Proof.
    intros G F p x q E. destruct q as [|y q].
    - apply app_inj_tail in E. destruct E as [-> ->]. exact F.
    - assert (X : exists q', y :: q = q' ++ [e] /\ log = p ++ x :: q').
      { destruct (exists_last (l := y :: q)) as (q' & z & Q); [discriminate|]. rewrite Q in E |- *.
        replace (p ++ x :: q' ++ [z]) with ((p ++ x :: q') ++ [z]) in E by (rewrite <- app_assoc; reflexivity).
        apply app_inj_tail in E. destruct E as [-> ->]. exists q'. auto. }
      destruct X as (q' & _ & ->). exact (G p x q' eq_refl).
  Qed.

  Record cok (log : list (nev V)) (s : addr) (x : cell) : Prop := {
    c_len : length (k_slots x) = cap s;
    c_repr : exists t, k_slots x = map Some (registered log s) ++ t;
    c_cnt : k_cnt x = length (registered log s);
    c_nodup : NoDup (registered log s);
    c_inside : k_inside x = shut log s;
    c_added : forall o, In (Some o) (k_slots x) -> added log o
  }.
  Record ninv (w : net V) : Prop := {
    n_ok : forall s x, n_cell w s = Some x -> cok (n_log w) s x;
    n_live : forall s, In s (living (n_log w)) <-> n_cell w s <> None;
    n_nodup : NoDup (living (n_log w));
    n_good : ngood (n_log w)
  }.

  Lemma ninv_nothing : ninv nothing.
  Proof.
    split; cbn.
    - discriminate.
    - intros s. split; [intros []|congruence].
    - constructor.
    - intros [|? ?] e q H; discriminate.
  Qed.

  Lemma cok_le log s x : cok log s x -> (k_cnt x <= cap s)%nat.
  Proof. intros [H1 [t H2] H3 _ _ _]. rewrite H3, <- H1, H2, app_length, map_length. lia. Qed.

  (** An event that changes nothing at [s]. *)
  Lemma cok_note log s x e : cok log s x ->
    registered (log ++ [e]) s = registered log s -> shut (log ++ [e]) s = shut log s -> cok (log ++ [e]) s x.
  Proof.
    intros [H1 H2 H3 H4 H5 H6] R S. split; rewrite ?R, ?S; auto. intros o H. apply added_app, H6, H.
  Qed.

  (** Entering a callback. *)
  Lemma ninv_entry w e o : ninv w -> added (n_log w) o -> (exists s, e = NDisc s o) \/ (exists s v, e = NData s o v) ->
    ninv (note w e).
  Proof.
    intros [N1 N2 N3 N4] A E. unfold note. split; cbn [n_cell n_log].
    - intros s x H. apply cok_note; [apply N1, H| |];
        rewrite ?registered_snoc, ?shut_snoc; destruct E as [(s' & ->)|(s' & v & ->)]; reflexivity.
    - intros s. rewrite living_snoc. destruct E as [(s' & ->)|(s' & v & ->)]; apply N2.
    - rewrite living_snoc. destruct E as [(s' & ->)|(s' & v & ->)]; exact N3.
    - apply ngood_snoc; [exact N4|]. destruct E as [(s' & ->)|(s' & v & ->)]; exact A.
  Qed.

  (** Replacing the cell at [s] and logging. *)
  Lemma ninv_put w s x e : ninv w -> n_cell w s <> None -> fits (n_log w) e ->
    (forall a, a <> s -> registered (n_log w ++ [e]) a = registered (n_log w) a) ->
    (forall a, a <> s -> shut (n_log w ++ [e]) a = shut (n_log w) a) ->
    living (n_log w ++ [e]) = living (n_log w) ->
    cok (n_log w ++ [e]) s x -> ninv (note (place w s (Some x)) e).
  Proof.
    intros [N1 N2 N3 N4] L F R S LV C. unfold note, place. split; cbn [n_cell n_log].
    - intros a y. destruct (Pos.eqb_spec a s) as [->|N].
      + intros [= <-]. exact C.
      + intros H. apply cok_note; [apply N1, H|apply R, N|apply S, N].
    - intros a. rewrite LV. destruct (Pos.eqb_spec a s) as [->|N]; [|apply N2].
      split; [discriminate|]. intros _. apply N2, L.
    - rewrite LV. exact N3.
    - apply ngood_snoc; assumption.
  Qed.

  Lemma at_ok (w : net V) s x : at_ w s = Ok x <-> n_cell w s = Some x.
  Proof. unfold at_. destruct (n_cell w s); split; intros H; inversion H; reflexivity. Qed.

  Lemma cok_add log s x o r a n : cok log s x -> added log = added log ->
    add_observer (Max s) (k_slots x) (k_cnt x) o = Ok (a, n, r) ->
    r = add_answer (cap s) (registered log s) o /\ cok (log ++ [NRet (NAdd s o) r]) s (Cell a n (k_inside x)).
  Proof.
    intros [H1 [t H2] H3 H4 H5 H6] _ E. set (l := registered log s) in *.
    destruct (add_repr (Max s) l t o) as (t' & E1 & E2 & E3); [rewrite <- H2; exact H1|].
    rewrite H2, H3, E1 in E. inversion E; subst a n r. clear E.
    set (r := add_answer (cap s) l o) in *. split; [reflexivity|].
    assert (EM : registered (log ++ [NRet (NAdd s o) r]) s = match r with ok => l ++ [o] | _ => l end).
    { rewrite registered_snoc. unfold l. destruct r; cbn [reg_step]; rewrite ?setm_same; reflexivity. }
    split; cbn [k_slots k_cnt k_inside].
    - rewrite <- H1, H2. destruct r eqn:Er; try (rewrite <- (E3 ltac:(discriminate)); reflexivity).
      destruct (E2 eq_refl) as [y Ey]. subst t. rewrite !map_app, !app_length. cbn. lia.
    - rewrite EM. exists t'. reflexivity.
    - rewrite EM. reflexivity.
    - rewrite EM. destruct r eqn:Er; try exact H4.
      assert (HN : ~ In o l).
      { unfold r, add_answer in Er. destruct (cap s <=? length l)%nat; [discriminate|].
        destruct (in_dec Pos.eq_dec o l); [discriminate|assumption]. }
      apply NoDup_rev in H4. rewrite <- (rev_involutive (l ++ [o])). apply NoDup_rev.
      rewrite rev_app_distr. cbn. constructor; [rewrite <- in_rev; exact HN|exact H4].
    - rewrite shut_snoc. exact H5.
    - intros y Hy.
      assert (HC : In (Some y) (k_slots x) \/ (r = ok /\ y = o)).
      { rewrite H2. destruct r eqn:Er; try (rewrite <- (E3 ltac:(discriminate)) in Hy; left; exact Hy).
        destruct (E2 eq_refl) as [z Ez]. subst t. rewrite !in_app_iff, map_app, in_app_iff in *. cbn in *.
        destruct Hy as [[Hy|[Hy|[]]]|Hy]; [tauto| |tauto]. inversion Hy. tauto. }
      destruct HC as [HC|[HC ->]]; [apply added_app, H6, HC|].
      exists s. rewrite HC. apply in_or_app. right. left. reflexivity.
  Qed.

  Lemma cok_remove log s x o r a n : cok log s x ->
    remove_observer (Max s) (k_slots x) (k_cnt x) o = Ok (a, n, r) ->
    r = remove_answer (registered log s) o /\ cok (log ++ [NRet (NRemove s o) r]) s (Cell a n (k_inside x)).
  Proof.
    intros C E. pose proof (cok_le log s x C) as HLE. destruct C as [H1 [t H2] H3 H4 H5 H6].
    set (l := registered log s) in *.
    destruct (remove_repr (Max s) l t o) as (g & E1 & E2 & E3); [lia|].
    rewrite H2, H3, E1 in E. inversion E; subst a n r. clear E.
    set (r := remove_answer l o) in *. split; [reflexivity|].
    assert (EM : registered (log ++ [NRet (NRemove s o) r]) s = remove Pos.eq_dec o l).
    { rewrite registered_snoc. unfold r, remove_answer. destruct (in_dec Pos.eq_dec o l) as [H|H]; cbn [reg_step].
      - apply setm_same.
      - symmetry. apply remove_notin. exact H. }
    split; cbn [k_slots k_cnt k_inside].
    - rewrite <- H1, H2. rewrite !app_length, !map_length, app_length. lia.
    - rewrite EM. exists (map Some g ++ t). rewrite map_app, app_assoc. reflexivity.
    - rewrite EM. reflexivity.
    - rewrite EM. clear - H4. induction l as [|y l IH]; [constructor|]. inversion H4; subst.
      cbn. destruct (Pos.eq_dec o y); [auto|]. constructor; [|auto]. intros HI. apply in_remove in HI. tauto.
    - rewrite shut_snoc. exact H5.
    - intros y Hy. apply added_app. apply H6. rewrite H2. rewrite in_app_iff in *. destruct Hy as [Hy|Hy]; [left|tauto].
      apply in_map_iff in Hy. destruct Hy as (z & Hz & Hy). inversion Hz; subst z.
      apply in_map. rewrite in_app_iff in Hy. destruct Hy as [Hy|Hy]; [apply in_remove in Hy; tauto|apply E3, Hy].
  Qed.

  Variable on_data : list (nev V) -> addr -> addr -> V -> nbody V.
  Variable on_disc : list (nev V) -> addr -> addr -> nbody V.
  Notation nrun := (nrun Max on_data on_disc).

  (** Activity extends the log and keeps the invariant. *)
  Definition grows (w w' : net V) : Prop := ninv w' /\ exists evs, n_log w' = n_log w ++ evs.
  Lemma grows_refl w : ninv w -> grows w w.
  Proof. intros H. split; [exact H|]. exists []. rewrite app_nil_r. reflexivity. Qed.
  Lemma grows_trans a b c : grows a b -> grows b c -> grows a c.
  Proof. intros (_ & e1 & E1) (I & e2 & E2). split; [exact I|]. exists (e1 ++ e2). rewrite E2, E1, app_assoc. reflexivity. Qed.

  Section Step.
    Variable step : net V -> ncall V -> res (net V * err).
    Hypothesis step_grows : forall w c w' e, ninv w -> step w c = Ok (w', e) -> grows w w'.

    Lemma body_grows b : forall w w', ninv w -> nrun_body step b w = Ok w' -> grows w w'.
    Proof.
      induction b as [|c k IH]; intros w w' I E; cbn [nrun_body] in E.
      - inversion E; subst. apply grows_refl, I.
      - destruct (step w c) as [[w1 e]| |] eqn:S; try discriminate. cbn [bind] in E.
        pose proof (step_grows w c w1 e I S) as G. apply (grows_trans _ _ _ G). apply (IH e w1 w' (proj1 G) E).
    Qed.
    Lemma round_grows mk cb s i w w' :
      (forall o, (exists s, mk o = NDisc s o) \/ (exists s v, mk o = NData s o v)) ->
      ninv w -> nround mk cb step s i w = Ok w' -> grows w w'.
    Proof.
      intros MK I E. unfold nround in E. destruct (at_ w s) as [x| |] eqn:A; try discriminate. cbn [bind] in E.
      apply at_ok in A. destruct (slot (k_slots x) i) as [p| |] eqn:SL; try discriminate. cbn [bind] in E.
      destruct p as [o|]; [|discriminate].
      assert (AD : added (n_log w) o).
      { apply (c_added _ _ _ (n_ok w I s x A)). unfold slot in SL.
        destruct (nth_error (k_slots x) i) as [p|] eqn:N; inversion SL; subst p. eapply nth_error_In, N. }
      pose proof (ninv_entry w (mk o) o I AD (MK o)) as I1.
      eapply grows_trans; [|eapply body_grows; [exact I1|exact E]].
      split; [exact I1|]. exists [mk o]. reflexivity.
    Qed.
    Lemma loop_grows f : (forall i w w', ninv w -> f i w = Ok w' -> grows w w') ->
      forall k i w w', ninv w -> nloop f i k w = Ok w' -> grows w w'.
    Proof.
      intros F. induction k as [|k IH]; intros i w w' I E; cbn [nloop] in E.
      - inversion E; subst. apply grows_refl, I.
      - destruct (f i w) as [w1| |] eqn:S1; try discriminate. cbn [bind] in E.
        pose proof (F i w w1 I S1) as G. apply (grows_trans _ _ _ G). apply (IH (S i) w1 w' (proj1 G) E).
    Qed.
    (** clear_observers up to count_ = 0, which is not logged yet. *)
    Lemma clear_grows s w w' : ninv w -> nclear on_disc step s w = Ok w' ->
      exists w1 x1, grows w w1 /\ n_cell w1 s = Some x1 /\
        w' = place w1 s (Some (Cell (k_slots x1) 0 (k_inside x1))).
    Proof.
      intros I E. unfold nclear in E. destruct (at_ w s) as [x| |] eqn:A; try discriminate. cbn [bind] in E.
      destruct (nloop _ 0 (k_cnt x) w) as [w1| |] eqn:L; try discriminate. cbn [bind] in E.
      destruct (at_ w1 s) as [x1| |] eqn:A1; try discriminate. cbn [bind] in E. inversion E; subst w'.
      exists w1, x1. split; [|split; [apply at_ok, A1|reflexivity]].
      eapply loop_grows; [|exact I|exact L]. intros i v v' I' R.
      eapply round_grows; [|exact I'|exact R]. intros o. left. exists s. reflexivity.
    Qed.
  End Step.

  Lemma cok_cleared log s x e : cok log s x -> registered (log ++ [e]) s = [] -> shut (log ++ [e]) s = shut log s ->
    cok (log ++ [e]) s (Cell (k_slots x) 0 (k_inside x)).
  Proof.
    intros [H1 H2 H3 H4 H5 H6] R S. split; cbn [k_slots k_cnt k_inside]; rewrite ?R, ?S; auto.
    - exists (k_slots x). reflexivity.
    - constructor.
    - intros o H. apply added_app, H6, H.
  Qed.

  Lemma place_place (w : net V) s x y : forall a, n_cell (place (place w s x) s y) a = n_cell (place w s y) a.
  Proof. intros a. unfold place. cbn. destruct (Pos.eqb a s); reflexivity. Qed.
  Lemma ninv_ext (w w' : net V) : (forall a, n_cell w a = n_cell w' a) -> n_log w = n_log w' -> ninv w -> ninv w'.
  Proof.
    intros C L [N1 N2 N3 N4]. rewrite L in *. split; auto.
    - intros s x H. apply N1. rewrite C. exact H.
    - intros s. rewrite <- C. apply N2.
  Qed.

  Lemma remove_in (a s : addr) l : In a (remove Pos.eq_dec s l) <-> In a l /\ a <> s.
  Proof.
    split; [intros H; apply in_remove in H; tauto|]. intros [H N]. apply in_in_remove; assumption.
  Qed.
  Lemma remove_nodup (s : addr) l : NoDup l -> NoDup (remove Pos.eq_dec s l).
  Proof.
    induction 1 as [|x l N _ IH]; cbn; [constructor|]. destruct (Pos.eq_dec s x); [exact IH|].
    constructor; [|exact IH]. rewrite remove_in. tauto.
  Qed.

  (** A new object at [s]. *)
  Lemma ninv_new w s x e : ninv w -> n_cell w s = None -> fits (n_log w) e ->
    (forall a, a <> s -> registered (n_log w ++ [e]) a = registered (n_log w) a) ->
    (forall a, a <> s -> shut (n_log w ++ [e]) a = shut (n_log w) a) ->
    living (n_log w ++ [e]) = s :: living (n_log w) ->
    cok (n_log w ++ [e]) s x -> ninv (note (place w s (Some x)) e).
  Proof.
    intros [N1 N2 N3 N4] L F R S LV C. unfold note, place. split; cbn [n_cell n_log].
    - intros a y. destruct (Pos.eqb_spec a s) as [->|N].
      + intros [= <-]. exact C.
      + intros H. apply cok_note; [apply N1, H|apply R, N|apply S, N].
    - intros a. rewrite LV. destruct (Pos.eqb_spec a s) as [->|N].
      + split; [discriminate|]. left. reflexivity.
      + rewrite <- N2. cbn. intuition congruence.
    - rewrite LV. constructor; [|exact N3]. rewrite N2, L. congruence.
    - apply ngood_snoc; assumption.
  Qed.
  Lemma cok_made log s : cok (log ++ [NRet (NMake s) ok]) s (Cell (fresh_slots (Max s)) 0 false).
  Proof.
    split; cbn [k_slots k_cnt k_inside]; rewrite ?registered_snoc, ?shut_snoc; cbn [reg_step shut_step]; rewrite ?setm_same.
    - apply repeat_length.
    - eexists. reflexivity.
    - reflexivity.
    - constructor.
    - reflexivity.
    - intros o H. apply repeat_spec in H. discriminate.
  Qed.
  Lemma cok_copied log a s x e : cok log a x -> cap s = cap a ->
    registered (log ++ [e]) s = registered log a -> shut (log ++ [e]) s = shut log a -> cok (log ++ [e]) s x.
  Proof.
    intros [H1 H2 H3 H4 H5 H6] M R S. split; rewrite ?R, ?S, ?M; auto. intros o H. apply added_app, H6, H.
  Qed.

  Lemma nrun_grows : forall f w c w' e, ninv w -> nrun f w c = Ok (w', e) ->
    ninv w' /\ exists evs, n_log w' = n_log w ++ evs ++ [NRet c e].
  Proof.
    induction f as [|f IH]; intros w c w' e I E; cbn [ObsNetModel.nrun] in E; [discriminate|].
    assert (SG : forall w c w' e, ninv w -> nrun f w c = Ok (w', e) -> grows w w').
    { intros v d v' g IV EV. destruct (IH v d v' g IV EV) as (A & evs & B). split; [exact A|]. eexists. exact B. }
    destruct c as [s|a s|a s|s|s o|s o|s|s v].
    - destruct (n_cell w s) eqn:N; [discriminate|]. cbn [bind] in E. inversion E; subst w' e. split.
      + apply ninv_new; try assumption; try reflexivity.
        * split; [reflexivity|]. rewrite (n_live w I), N. congruence.
        * intros b NB. rewrite registered_snoc. cbn [reg_step]. apply setm_other, NB.
        * intros b NB. rewrite shut_snoc. cbn [shut_step]. apply setm_other, NB.
        * rewrite living_snoc. reflexivity.
        * apply cok_made.
      + exists []. reflexivity.
    - destruct (at_ w a) as [x| |] eqn:A; try discriminate. cbn [bind] in E. apply at_ok in A.
      destruct (n_cell w s) eqn:N; [discriminate|]. destruct (Z.eqb_spec (Max a) (Max s)) as [M|]; [|discriminate].
      cbn [bind] in E. inversion E; subst w' e. split.
      + apply ninv_new; try assumption; try reflexivity.
        * split; [reflexivity|]. rewrite !(n_live w I), N, A. split; congruence.
        * intros b NB. rewrite registered_snoc. cbn [reg_step]. apply setm_other, NB.
        * intros b NB. rewrite shut_snoc. cbn [shut_step]. apply setm_other, NB.
        * rewrite living_snoc. reflexivity.
        * eapply cok_copied; [apply (n_ok w I a x A)|rewrite M; reflexivity| |].
          -- rewrite registered_snoc. apply setm_same.
          -- rewrite shut_snoc. apply setm_same.
      + exists []. reflexivity.
    - destruct (at_ w a) as [x| |] eqn:A; try discriminate. cbn [bind] in E. apply at_ok in A.
      destruct (at_ w s) as [y| |] eqn:AS; try discriminate. cbn [bind] in E. apply at_ok in AS.
      destruct (Z.eqb_spec (Max a) (Max s)) as [M|]; [|discriminate]. cbn [bind] in E. inversion E; subst w' e. split.
      + apply ninv_put; try assumption; try reflexivity.
        * congruence.
        * intros b NB. rewrite registered_snoc. cbn [reg_step]. apply setm_other, NB.
        * intros b NB. rewrite shut_snoc. cbn [shut_step]. apply setm_other, NB.
        * rewrite living_snoc. reflexivity.
        * eapply cok_copied; [apply (n_ok w I a x A)|rewrite M; reflexivity| |].
          -- rewrite registered_snoc. apply setm_same.
          -- rewrite shut_snoc. apply setm_same.
      + exists []. reflexivity.
    - destruct (nclear on_disc (nrun f) s w) as [w2| |] eqn:C; try discriminate. cbn [bind] in E. inversion E; subst w' e.
      destruct (clear_grows (nrun f) SG s w w2 I C) as (w1 & x1 & (I1 & evs & EL) & A1 & ->). split.
      + destruct I1 as [N1 N2 N3 N4]. unfold note, place. split; cbn [n_cell n_log].
        * intros b y. destruct (Pos.eqb_spec b s) as [->|NB]; [discriminate|]. intros H.
          apply cok_note; [apply N1, H| |]; rewrite ?registered_snoc, ?shut_snoc; cbn [reg_step shut_step];
            [apply setm_other, NB|reflexivity].
        * intros b. rewrite living_snoc. cbn [live_step]. rewrite remove_in. destruct (Pos.eqb_spec b s) as [->|NB].
          -- split; [tauto|congruence].
          -- rewrite N2. tauto.
        * rewrite living_snoc. apply remove_nodup, N3.
        * apply ngood_snoc; [exact N4|reflexivity].
      + exists evs. cbn [note place n_log]. rewrite EL, app_assoc. reflexivity.
    - destruct (at_ w s) as [x| |] eqn:A; try discriminate. cbn [bind] in E. apply at_ok in A.
      destruct (add_observer (Max s) (k_slots x) (k_cnt x) o) as [[[b n] r]| |] eqn:AD; try discriminate.
      cbn [bind] in E. inversion E; subst w' r.
      destruct (cok_add _ s x o e b n (n_ok w I s x A) eq_refl AD) as (R & C). split.
      + apply ninv_put; try assumption; try (rewrite A; discriminate).
        * intros z NZ. rewrite registered_snoc. destruct e; cbn [reg_step]; try reflexivity. apply setm_other, NZ.
        * intros z NZ. rewrite shut_snoc. reflexivity.
        * rewrite living_snoc. reflexivity.
      + exists []. reflexivity.
    - destruct (at_ w s) as [x| |] eqn:A; try discriminate. cbn [bind] in E. apply at_ok in A.
      destruct (remove_observer (Max s) (k_slots x) (k_cnt x) o) as [[[b n] r]| |] eqn:AD; try discriminate.
      cbn [bind] in E. inversion E; subst w' r.
      destruct (cok_remove _ s x o e b n (n_ok w I s x A) AD) as (R & C). split.
      + apply ninv_put; try assumption; try (rewrite A; discriminate).
        * intros z NZ. rewrite registered_snoc. destruct e; cbn [reg_step]; try reflexivity. apply setm_other, NZ.
        * intros z NZ. rewrite shut_snoc. reflexivity.
        * rewrite living_snoc. reflexivity.
      + exists []. reflexivity.
    - destruct (nclear on_disc (nrun f) s w) as [w2| |] eqn:C; try discriminate. cbn [bind] in E. inversion E; subst w' e.
      destruct (clear_grows (nrun f) SG s w w2 I C) as (w1 & x1 & (I1 & evs & EL) & A1 & ->). split.
      + apply ninv_put; try assumption; try reflexivity.
        * rewrite A1. discriminate.
        * intros z NZ. rewrite registered_snoc. cbn [reg_step]. apply setm_other, NZ.
        * intros z NZ. rewrite shut_snoc. reflexivity.
        * rewrite living_snoc. reflexivity.
        * apply cok_cleared; [apply (n_ok w1 I1 s x1 A1)| |].
          -- rewrite registered_snoc. apply setm_same.
          -- rewrite shut_snoc. reflexivity.
      + exists evs. cbn [note place n_log]. rewrite EL, app_assoc. reflexivity.
    - destruct (at_ w s) as [x| |] eqn:A; try discriminate. cbn [bind] in E. apply at_ok in A.
      pose proof (n_ok w I s x A) as CK. pose proof (cok_le _ _ _ CK) as LE.
      destruct (Nat.ltb_spec (cap s) (k_cnt x)) as [B|_]; [lia|].
      destruct (k_inside x) eqn:IN.
      + cbn [bind] in E. inversion E; subst w' e. split; [|exists []; reflexivity].
        destruct I as [N1 N2 N3 N4]. unfold note. split; cbn [n_cell n_log].
        * intros b y H. apply cok_note; [apply N1, H| |]; rewrite ?registered_snoc, ?shut_snoc; reflexivity.
        * intros b. rewrite living_snoc. apply N2.
        * rewrite living_snoc. exact N3.
        * apply ngood_snoc; [exact N4|]. right. split; [reflexivity|]. rewrite <- (c_inside _ _ _ CK). exact IN.
      + set (w0 := note (place w s (Some (Cell (k_slots x) (k_cnt x) true))) (NEnter s v)) in *.
        assert (I0 : ninv w0).
        { apply ninv_put; try assumption; try reflexivity.
          - rewrite A. discriminate.
          - cbn [fits]. rewrite <- (c_inside _ _ _ CK). exact IN.
          - intros z NZ. rewrite registered_snoc. reflexivity.
          - intros z NZ. rewrite shut_snoc. cbn [shut_step]. apply setm_other, NZ.
          - rewrite living_snoc. reflexivity.
          - destruct CK as [C1 C2 C3 C4 C5 C6]. split; cbn [k_slots k_cnt k_inside];
              rewrite ?registered_snoc, ?shut_snoc; cbn [reg_step shut_step]; rewrite ?setm_same; auto.
            intros z H. apply added_app, C6, H. }
        destruct (nloop _ 0 (k_cnt x) w0) as [w1| |] eqn:L; try discriminate. cbn [bind] in E.
        destruct (at_ w1 s) as [x1| |] eqn:A1; try discriminate. cbn [bind] in E. inversion E; subst w' e. apply at_ok in A1.
        assert (G : grows w0 w1).
        { eapply loop_grows; [|exact I0|exact L]. intros i u u' IU R.
          eapply round_grows; [exact SG| |exact IU|exact R]. intros z. right. exists s, v. reflexivity. }
        destruct G as (I1 & evs & EL). split.
        * apply ninv_put; try assumption.
          -- rewrite A1. discriminate.
          -- left. split; [reflexivity|]. rewrite EL. unfold w0. cbn [note place n_log]. rewrite !in_app_iff. left. right. left. reflexivity.
          -- intros z NZ. rewrite registered_snoc. reflexivity.
          -- intros z NZ. rewrite shut_snoc. cbn [shut_step]. apply setm_other, NZ.
          -- rewrite living_snoc. reflexivity.
          -- destruct (n_ok w1 I1 s x1 A1) as [C1 C2 C3 C4 C5 C6]. split; cbn [k_slots k_cnt k_inside];
               rewrite ?registered_snoc, ?shut_snoc; cbn [reg_step shut_step]; rewrite ?setm_same; auto.
             intros z H. apply added_app, C6, H.
        * exists (NEnter s v :: evs). unfold w0 in EL. cbn [note place n_log] in *. rewrite EL, <- !app_assoc. reflexivity.
  Qed.

  Lemma nreach_ninv w : nreaches Max on_data on_disc w -> ninv w.
  Proof.
    intros (f & calls & E).
    assert (G : forall calls v, ninv v -> nrun_all Max on_data on_disc f v calls = Ok w -> ninv w).
    { clear calls E. induction calls as [|c t IH]; intros v I E; cbn [nrun_all] in E.
      - inversion E; subst. exact I.
      - destruct (nrun f v c) as [[v1 e]| |] eqn:R; try discriminate. cbn [bind] in E.
        apply (IH v1 (proj1 (nrun_grows f v c v1 e I R)) E). }
    exact (G calls nothing ninv_nothing E).
  Qed.
End Inv.
