(** Lemmas for observables shared by threads. *)
From Verif Require Export ObsThreadsSpec.
From Coq Require Import Wellfounded Relation_Operators.

Definition hold_of (fs : list frame) : list (act * nat) :=
  flat_map (fun f => match f with Holding a i => [(a, i)] | Body _ => [] end) fs.

Lemma put_same {A} (l : list A) k x y : nth_error l k = Some x -> nth_error (put l k y) k = Some y.
Proof. revert k. induction l as [|z l IH]; intros [|k] H; cbn in *; try discriminate; auto. Qed.
Lemma put_other {A} (l : list A) k j y : j <> k -> nth_error (put l k y) j = nth_error l j.
Proof. revert k j. induction l as [|z l IH]; intros [|k] [|j] H; cbn in *; try reflexivity; try congruence. apply IH. congruence. Qed.
Lemma set_same {A} (f : nat -> A) k a : set_at f k a k = a.
Proof. unfold set_at. rewrite Nat.eqb_refl. reflexivity. Qed.
Lemma set_other {A} (f : nat -> A) k a j : j <> k -> set_at f k a j = f j.
Proof. intros H. unfold set_at. replace (j =? k)%nat with false by (symmetry; apply Nat.eqb_neq; exact H). reflexivity. Qed.
Lemma about_app x h e : about x (h ++ e) = about x h ++ about x e.
Proof. unfold about. induction h as [|y h IH]; cbn; [reflexivity|]. destruct (concerns x y); cbn; rewrite IH; reflexivity. Qed.
Lemma serial_app l ops ops' : serial l (ops ++ ops') = serial l ops ++ serial (fold_left (fun l ta => after (snd ta) l) ops l) ops'.
Proof. revert l. induction ops as [|[t a] ops IH]; intros l; cbn; [reflexivity|]. rewrite IH, <- app_assoc. cbn. rewrite <- !app_assoc. reflexivity. Qed.
Lemma member_in o l : member o l = true <-> In o l.
Proof.
  unfold member. rewrite existsb_exists. split; [intros (x & H & E); apply Nat.eqb_eq in E; subst; exact H|].
  intros H. exists o. split; [exact H|apply Nat.eqb_refl].
Qed.
Lemma not_member_filter o l : member o l = false -> filter (fun y => negb (y =? o)%nat) l = l.
Proof.
  induction l as [|y l IH]; [reflexivity|]. cbn. rewrite orb_false_iff. intros (H1 & H2).
  rewrite Nat.eqb_sym, H1. cbn. rewrite IH; auto.
Qed.

Section Th.
  Variable on_data : nat -> nat -> Z -> list act.
  Variable on_disc : nat -> nat -> list act.
  Notation tstep := (tstep on_data on_disc).
  Notation trun := (trun on_data on_disc).

  (** The four kinds of step. *)
  Inductive kind (w : tworld) (t : nat) : tworld -> Prop :=
  | k_pop fs : nth_error (stacks w) t = Some (Body [] :: fs) ->
      kind w t (TW (subs w) (lock w) (put (stacks w) t fs) (hist w))
  | k_get a r fs : nth_error (stacks w) t = Some (Body (a :: r) :: fs) -> lock w (target a) = None ->
      kind w t (TW (subs w) (set_at (lock w) (target a) (Some t)) (put (stacks w) t (Holding a 0 :: Body r :: fs)) (hist w ++ [Begin t a]))
  | k_call a i fs e b : nth_error (stacks w) t = Some (Holding a i :: fs) ->
      nth_error (calls t a (subs w (target a))) i = Some e -> (forall y, concerns y e = (target a =? y)%nat) -> who e = t -> b = handler on_data on_disc e ->
      ((exists o x v, a = NotifyObs x v /\ b = on_data o x v) \/ (exists o x, a = ClearObs x /\ b = on_disc o x)) ->
      kind w t (TW (subs w) (lock w) (put (stacks w) t (Body b :: Holding a (S i) :: fs)) (hist w ++ [e]))
  | k_end a i fs : nth_error (stacks w) t = Some (Holding a i :: fs) ->
      (length (calls t a (subs w (target a))) <= i)%nat ->
      kind w t (TW (set_at (subs w) (target a) (after a (subs w (target a)))) (set_at (lock w) (target a) None)
                   (put (stacks w) t fs) (hist w ++ [End t a (outcome a (subs w (target a)))])).

  Lemma step_kind w t w' : tstep w t = Ok (Some w') -> kind w t w'.
  Proof.
    unfold ObsThreadsModel.tstep. destruct (nth_error (stacks w) t) as [[|[[|a r]|a i] fs]|] eqn:E; try discriminate.
    - intros [= <-]. apply k_pop, E.
    - destruct (lock w (target a)) as [u|] eqn:L; [destruct (u =? t)%nat; discriminate|]. intros [= <-]. apply k_get; assumption.
    - destruct a as [x o|x o|x|x v]; cbn [target].
      + pose proof (k_end w t (AddObs x o) i fs E (Nat.le_0_l i)) as K. cbn [target after outcome] in K.
        destruct (member o (subs w x)); cbn [negb] in K; intros [= <-]; exact K.
      + pose proof (k_end w t (RemObs x o) i fs E (Nat.le_0_l i)) as K. cbn [target after outcome] in K.
        destruct (member o (subs w x)) eqn:M; [|rewrite (not_member_filter _ _ M) in K]; intros [= <-]; exact K.
      + destruct (nth_error (subs w x) i) as [o|] eqn:N; intros [= <-].
        * apply (k_call w t (ClearObs x) i fs (Disc t x o) (on_disc o x) E); [|reflexivity|reflexivity|reflexivity|right; eauto].
          cbn. rewrite nth_error_map, N. reflexivity.
        * apply (k_end w t (ClearObs x) i fs E). cbn. rewrite map_length. apply nth_error_None, N.
      + destruct (nth_error (subs w x) i) as [o|] eqn:N; intros [= <-].
        * apply (k_call w t (NotifyObs x v) i fs (Deliver t x o v) (on_data o x v) E); [|reflexivity|reflexivity|reflexivity|left; eauto].
          cbn. rewrite nth_error_map, N. reflexivity.
        * apply (k_end w t (NotifyObs x v) i fs E). cbn. rewrite map_length. apply nth_error_None, N.
  Qed.

  Record tinv (w : tworld) : Prop := {
    t_hold : forall t fs a i, nth_error (stacks w) t = Some fs -> In (a, i) (hold_of fs) ->
      lock w (target a) = Some t /\ (i <= length (calls t a (subs w (target a))))%nat /\
      exists ops, about (target a) (hist w) = serial [] ops ++ Begin t a :: firstn i (calls t a (subs w (target a))) /\
                  subs w (target a) = after_all ops;
    t_nodup : forall t fs, nth_error (stacks w) t = Some fs -> NoDup (map (fun h => target (fst h)) (hold_of fs));
    t_free : forall x, lock w x = None -> exists ops, about x (hist w) = serial [] ops /\ subs w x = after_all ops;
    t_lock : forall x t, lock w x = Some t -> exists fs a i, nth_error (stacks w) t = Some fs /\ In (a, i) (hold_of fs) /\ target a = x
  }.

  Lemma tinv_start progs : tinv (tstart progs).
  Proof.
    split; cbn.
    - intros t fs a i H I. rewrite nth_error_map in H. destruct (nth_error progs t); inversion H; subst. destruct I.
    - intros t fs H. rewrite nth_error_map in H. destruct (nth_error progs t); inversion H; subst. constructor.
    - intros x _. exists []. split; reflexivity.
    - discriminate.
  Qed.

  Lemma firstn_snoc {A} (l : list A) i x : nth_error l i = Some x -> firstn (S i) l = firstn i l ++ [x].
  Proof. revert i. induction l as [|y l IH]; intros [|i] H; cbn in *; try discriminate; [inversion H; reflexivity|]. rewrite IH with (1 := H). reflexivity. Qed.

  Lemma kind_tinv w t w' : tinv w -> kind w t w' -> tinv w'.
  Proof.
    intros [TH TN TF TL] K. destruct K as [fs E|a r fs E L|a i fs e b E N C WE HB B|a i fs E LE].
    - assert (HO : forall u gs, nth_error (put (stacks w) t fs) u = Some gs -> exists gs', nth_error (stacks w) u = Some gs' /\ hold_of gs' = hold_of gs).
      { intros u gs H. destruct (Nat.eq_dec u t) as [->|NE]; [rewrite (put_same _ _ _ _ E) in H; inversion H; subst; eauto|].
        rewrite put_other in H by exact NE. eauto. }
      split; cbn [subs lock stacks hist].
      + intros u gs a i H I. destruct (HO u gs H) as (gs' & H' & EH). rewrite <- EH in I. apply (TH u gs' a i H' I).
      + intros u gs H. destruct (HO u gs H) as (gs' & H' & EH). rewrite <- EH. apply (TN u gs' H').
      + exact TF.
      + intros x u H. destruct (TL x u H) as (gs & a & i & H1 & H2 & H3). destruct (Nat.eq_dec u t) as [->|NE].
        * rewrite E in H1. inversion H1; subst gs. exists fs, a, i. rewrite (put_same _ _ _ _ E). auto.
        * exists gs, a, i. rewrite put_other by exact NE. auto.
    - assert (NT : forall u gs b j, nth_error (stacks w) u = Some gs -> In (b, j) (hold_of gs) -> target b <> target a).
      { intros u gs b j H I EQ. destruct (TH u gs b j H I) as (H1 & _). congruence. }
      split; cbn [subs lock stacks hist].
      + intros u gs b j H I.
        assert (OLD : forall gs', nth_error (stacks w) u = Some gs' -> In (b, j) (hold_of gs') ->
          set_at (lock w) (target a) (Some t) (target b) = Some u /\ (j <= length (calls u b (subs w (target b))))%nat /\
          exists ops, about (target b) (hist w ++ [Begin t a]) = serial [] ops ++ Begin u b :: firstn j (calls u b (subs w (target b))) /\
                  subs w (target b) = after_all ops).
        { intros gs' H' I'. pose proof (NT u gs' b j H' I') as NE. destruct (TH u gs' b j H' I') as (H1 & H2 & H3).
          rewrite set_other by exact NE. split; [exact H1|]. split; [exact H2|]. rewrite about_app. cbn.
          replace (target a =? target b)%nat with false by (symmetry; apply Nat.eqb_neq; congruence). rewrite app_nil_r. exact H3. }
        destruct (Nat.eq_dec u t) as [->|NE].
        * rewrite (put_same _ _ _ _ E) in H. inversion H; subst gs. cbn in I. destruct I as [I|I].
          -- inversion I; subst b j. rewrite set_same. split; [reflexivity|]. split; [lia|]. destruct (TF (target a) L) as (ops & F1 & F2).
             exists ops. rewrite about_app, F1. cbn. rewrite Nat.eqb_refl. auto.
          -- apply (OLD _ E). cbn. exact I.
        * rewrite put_other in H by exact NE. apply (OLD _ H I).
      + intros u gs H. destruct (Nat.eq_dec u t) as [->|NE].
        * rewrite (put_same _ _ _ _ E) in H. inversion H; subst gs. cbn. constructor; [|apply (TN t _ E)].
          intros I. apply in_map_iff in I. destruct I as ([b j] & I1 & I2). cbn in I1. apply (NT t _ b j E I2 I1).
        * rewrite put_other in H by exact NE. apply (TN u gs H).
      + intros x H. destruct (Nat.eq_dec x (target a)) as [->|NE]; [rewrite set_same in H; discriminate|].
        rewrite set_other in H by exact NE. destruct (TF x H) as (ops & F1 & F2). exists ops. rewrite about_app. cbn.
        replace (target a =? x)%nat with false by (symmetry; apply Nat.eqb_neq; congruence). rewrite app_nil_r. auto.
      + intros x u H. destruct (Nat.eq_dec x (target a)) as [->|NE].
        * rewrite set_same in H. inversion H; subst u. exists (Holding a 0 :: Body r :: fs), a, 0%nat. rewrite (put_same _ _ _ _ E). cbn. auto.
        * rewrite set_other in H by exact NE. destruct (TL x u H) as (gs & b & j & H1 & H2 & H3). destruct (Nat.eq_dec u t) as [->|NU].
          -- rewrite E in H1. inversion H1; subst gs. exists (Holding a 0 :: Body r :: fs), b, j. rewrite (put_same _ _ _ _ E). cbn. auto.
          -- exists gs, b, j. rewrite put_other by exact NU. auto.
    - assert (NT : forall u gs b j, nth_error (put (stacks w) t fs) u = Some gs -> In (b, j) (hold_of gs) -> target b <> target a).
      { intros u gs b' j H I EQ. destruct (Nat.eq_dec u t) as [->|NE].
        - rewrite (put_same _ _ _ _ E) in H. inversion H; subst gs. pose proof (TN t _ E) as ND. cbn in ND. inversion ND as [|? ? NI _]; subst.
          apply NI. rewrite <- EQ. apply in_map_iff. exists (b', j). auto.
        - rewrite put_other in H by exact NE. destruct (TH u gs b' j H I) as (H1 & _).
          destruct (TH t _ a i E (or_introl eq_refl)) as (H2 & _). congruence. }
      split; cbn [subs lock stacks hist].
      + intros u gs b' j H I.
        assert (OLD : forall gs', nth_error (stacks w) u = Some gs' -> In (b', j) (hold_of gs') -> target b' <> target a ->
          lock w (target b') = Some u /\ (j <= length (calls u b' (subs w (target b'))))%nat /\
          exists ops, about (target b') (hist w ++ [e]) = serial [] ops ++ Begin u b' :: firstn j (calls u b' (subs w (target b'))) /\
                  subs w (target b') = after_all ops).
        { intros gs' H' I' NE. destruct (TH u gs' b' j H' I') as (H1 & H2 & H3).
          split; [exact H1|]. split; [exact H2|]. rewrite about_app. cbn. rewrite C.
          replace (target a =? target b')%nat with false by (symmetry; apply Nat.eqb_neq; congruence). rewrite app_nil_r. exact H3. }
        destruct (Nat.eq_dec u t) as [->|NE].
        * rewrite (put_same _ _ _ _ E) in H. inversion H; subst gs. cbn in I. destruct I as [I|I].
          -- inversion I; subst b' j. destruct (TH t _ a i E (or_introl eq_refl)) as (H1 & H2 & ops & F1 & F2). split; [exact H1|].
             split; [apply Nat.le_succ_l, nth_error_Some; congruence|]. exists ops. split; [|exact F2].
             rewrite about_app, F1, (firstn_snoc _ _ _ N). cbn. rewrite C, Nat.eqb_refl. rewrite <- app_assoc. reflexivity.
          -- apply (OLD _ E); [cbn; right; exact I|]. apply (NT t fs b' j (put_same _ _ _ _ E) I).
        * rewrite put_other in H by exact NE. apply (OLD _ H I). apply (NT u gs b' j); [rewrite put_other by exact NE; exact H|exact I].
      + intros u gs H. destruct (Nat.eq_dec u t) as [->|NE].
        * rewrite (put_same _ _ _ _ E) in H. inversion H; subst gs. cbn. apply (TN t _ E).
        * rewrite put_other in H by exact NE. apply (TN u gs H).
      + intros x H. destruct (Nat.eq_dec x (target a)) as [->|NE].
        * destruct (TH t _ a i E (or_introl eq_refl)) as (H1 & _). congruence.
        * destruct (TF x H) as (ops & F1 & F2). exists ops. rewrite about_app. cbn. rewrite C.
          replace (target a =? x)%nat with false by (symmetry; apply Nat.eqb_neq; congruence). rewrite app_nil_r. auto.
      + intros x u H. destruct (TL x u H) as (gs & b' & j & H1 & H2 & H3). destruct (Nat.eq_dec u t) as [->|NU].
        * rewrite E in H1. inversion H1; subst gs. cbn in H2. destruct H2 as [H2|H2].
          -- inversion H2; subst b' j. exists (Body b :: Holding a (S i) :: fs), a, (S i). rewrite (put_same _ _ _ _ E). cbn. auto.
          -- exists (Body b :: Holding a (S i) :: fs), b', j. rewrite (put_same _ _ _ _ E). cbn. auto.
        * exists gs, b', j. rewrite put_other by exact NU. auto.
    - assert (NT : forall u gs b j, nth_error (put (stacks w) t fs) u = Some gs -> In (b, j) (hold_of gs) -> target b <> target a).
      { intros u gs b' j H I EQ. destruct (Nat.eq_dec u t) as [->|NE].
        - rewrite (put_same _ _ _ _ E) in H. inversion H; subst gs. pose proof (TN t _ E) as ND. cbn in ND. inversion ND as [|? ? NI _]; subst.
          apply NI. rewrite <- EQ. apply in_map_iff. exists (b', j). auto.
        - rewrite put_other in H by exact NE. destruct (TH u gs b' j H I) as (H1 & _).
          destruct (TH t _ a i E (or_introl eq_refl)) as (H2 & _). congruence. }
      split; cbn [subs lock stacks hist].
      + intros u gs b' j H I. pose proof (NT u gs b' j H I) as NE. rewrite !set_other by exact NE.
        assert (OLD : exists gs', nth_error (stacks w) u = Some gs' /\ In (b', j) (hold_of gs')).
        { destruct (Nat.eq_dec u t) as [->|NU].
          - rewrite (put_same _ _ _ _ E) in H. inversion H; subst gs. eexists. split; [exact E|]. cbn. right. exact I.
          - rewrite put_other in H by exact NU. eauto. }
        destruct OLD as (gs' & H' & I'). destruct (TH u gs' b' j H' I') as (H1 & H2 & H3).
        split; [exact H1|]. split; [exact H2|]. rewrite about_app. cbn.
        replace (target a =? target b')%nat with false by (symmetry; apply Nat.eqb_neq; congruence). rewrite app_nil_r. exact H3.
      + intros u gs H. destruct (Nat.eq_dec u t) as [->|NE].
        * rewrite (put_same _ _ _ _ E) in H. inversion H; subst gs. pose proof (TN t _ E) as ND. cbn in ND. inversion ND; assumption.
        * rewrite put_other in H by exact NE. apply (TN u gs H).
      + intros x H. destruct (Nat.eq_dec x (target a)) as [->|NE].
        * destruct (TH t _ a i E (or_introl eq_refl)) as (H1 & H2 & ops & F1 & F2). exists (ops ++ [(t, a)]). rewrite set_same.
          unfold after_all in *. rewrite about_app, serial_app, fold_left_app, F1. cbn. rewrite Nat.eqb_refl, <- F2.
          rewrite firstn_all2 by exact LE. rewrite app_nil_r, <- app_assoc. split; reflexivity.
        * rewrite set_other in H by exact NE. rewrite set_other by exact NE. destruct (TF x H) as (ops & F1 & F2). exists ops. rewrite about_app. cbn.
          replace (target a =? x)%nat with false by (symmetry; apply Nat.eqb_neq; congruence). rewrite app_nil_r. auto.
      + intros x u H. destruct (Nat.eq_dec x (target a)) as [->|NE]; [rewrite set_same in H; discriminate|].
        rewrite set_other in H by exact NE. destruct (TL x u H) as (gs & b' & j & H1 & H2 & H3). destruct (Nat.eq_dec u t) as [->|NU].
        * rewrite E in H1. inversion H1; subst gs. cbn in H2. destruct H2 as [H2|H2]; [inversion H2; subst; congruence|].
          exists fs, b', j. rewrite (put_same _ _ _ _ E). auto.
        * exists gs, b', j. rewrite put_other by exact NU. auto.
  Qed.

  Lemma run_ind (P : tworld -> Prop) : (forall w t w', P w -> tstep w t = Ok (Some w') -> P w') ->
    forall sched w w', P w -> trun w sched = Ok w' -> P w'.
  Proof.
    intros ST. induction sched as [|t sched IH]; intros w w' H R; cbn [ObsThreadsModel.trun] in R; [inversion R; subst; exact H|].
    destruct (tstep w t) as [[w1|]| |] eqn:E; try discriminate; [apply (IH w1); eauto|apply (IH w); eauto].
  Qed.
  Lemma reach_tinv progs sched w : trun (tstart progs) sched = Ok w -> tinv w.
  Proof.
    apply run_ind; [|apply tinv_start]. intros w0 t w1 I E. eapply kind_tinv; [exact I|]. apply step_kind, E.
  Qed.

  (** ** What each thread does *)
  Notation trace := (trace on_data on_disc).
  Notation handled := (handled on_data on_disc).
  Inductive comp (sb : nat -> list nat) (t : nat) : list frame -> list tev -> Prop :=
  | comp_nil : comp sb t [] []
  | comp_body l fs h k : trace t l h -> comp sb t fs k -> comp sb t (Body l :: fs) (h ++ k)
  | comp_hold a i fs h k : handled t (skipn i (calls t a (sb (target a)))) h -> comp sb t fs k ->
      comp sb t (Holding a i :: fs) (h ++ End t a (outcome a (sb (target a))) :: k).
  Lemma comp_ext sb sb' t fs k : (forall a i, In (a, i) (hold_of fs) -> sb (target a) = sb' (target a)) -> comp sb t fs k -> comp sb' t fs k.
  Proof.
    intros E C. induction C as [|l fs h k H C IH|a i fs h k H C IH].
    - constructor.
    - constructor; [exact H|apply IH, E].
    - assert (EA : sb (target a) = sb' (target a)) by (apply (E a i); left; reflexivity). rewrite EA.
      constructor; [rewrite <- EA; exact H|]. apply IH. intros b j I. apply (E b j). right. exact I.
  Qed.
  Definition goes_on (progs : list (list act)) (w : tworld) : Prop :=
    forall t fs, nth_error (stacks w) t = Some fs -> exists p, nth_error progs t = Some p /\
      forall k, comp (subs w) t fs k -> trace t p (events_of t (hist w) ++ k).
  Lemma by_app t h h' : events_of t (h ++ h') = events_of t h ++ events_of t h'.
  Proof. unfold events_of. induction h as [|e h IH]; cbn; [reflexivity|]. destruct (who e =? t)%nat; cbn; rewrite IH; reflexivity. Qed.
  Lemma by_own t e : who e = t -> events_of t [e] = [e].
  Proof. intros <-. cbn. rewrite Nat.eqb_refl. reflexivity. Qed.
  Lemma by_other t u e : who e = u -> t <> u -> events_of t [e] = [].
  Proof. intros <- N. cbn. replace (who e =? t)%nat with false by (symmetry; apply Nat.eqb_neq; congruence). reflexivity. Qed.
  Lemma skipn_nth {A} (l : list A) i x : nth_error l i = Some x -> skipn i l = x :: skipn (S i) l.
  Proof. revert i. induction l as [|y l IH]; intros [|i] H; cbn in *; try discriminate; [inversion H; reflexivity|]. exact (IH i H). Qed.

  Lemma kind_goes_on progs w t w' : tinv w -> goes_on progs w -> kind w t w' -> goes_on progs w'.
  Proof.
    intros T G K u gs E'.
    assert (OTH : forall e new sb, who e = t -> u <> t -> nth_error (put (stacks w) t new) u = Some gs ->
              (forall a i, In (a, i) (hold_of gs) -> sb (target a) = subs w (target a)) ->
              exists p, nth_error progs u = Some p /\ forall k, comp sb u gs k -> trace u p (events_of u (hist w ++ [e]) ++ k)).
    { intros e new sb WE' NE H S. rewrite put_other in H by exact NE. destruct (G u gs H) as (p & P1 & P2). exists p. split; [exact P1|].
      intros k C. rewrite by_app, (by_other u t e WE' NE), app_nil_r. apply P2. eapply comp_ext; [exact S|exact C]. }
    destruct K as [fs E|a r fs E L|a i fs e b E N C WE HB B|a i fs E LE]; cbn [stacks subs hist] in *.
    - destruct (Nat.eq_dec u t) as [->|NE].
      + rewrite (put_same _ _ _ _ E) in E'. inversion E'; subst gs. destruct (G t _ E) as (p & P1 & P2). exists p. split; [exact P1|].
        intros k C. apply P2. apply (comp_body (subs w) t [] fs [] k); [constructor|exact C].
      + rewrite put_other in E' by exact NE. exact (G u gs E').
    - destruct (Nat.eq_dec u t) as [->|NE]; [|apply (OTH (Begin t a) _ _ eq_refl NE E'); reflexivity].
      rewrite (put_same _ _ _ _ E) in E'. inversion E'; subst gs. destruct (G t _ E) as (p & P1 & P2). exists p. split; [exact P1|].
      intros k C. rewrite by_app, by_own by reflexivity. rewrite <- app_assoc. apply P2.
      inversion C as [| |? ? ? h k' HH CC]; subst. inversion CC as [|? ? h' k'' HT CC'|]; subst. cbn [skipn] in HH.
      change (comp (subs w) t (Body (a :: r) :: fs) ([Begin t a] ++ h ++ End t a (outcome a (subs w (target a))) :: h' ++ k'')).
      replace ([Begin t a] ++ h ++ End t a (outcome a (subs w (target a))) :: h' ++ k'')
        with ((Begin t a :: h ++ End t a (outcome a (subs w (target a))) :: h') ++ k'') by (cbn; rewrite <- app_assoc; reflexivity).
      constructor; [|exact CC']. apply trace_call with (l := subs w (target a)); assumption.
    - destruct (Nat.eq_dec u t) as [->|NE]; [|apply (OTH _ _ _ WE NE E'); reflexivity].
      rewrite (put_same _ _ _ _ E) in E'. inversion E'; subst gs. destruct (G t _ E) as (p & P1 & P2). exists p. split; [exact P1|].
      intros k CM. rewrite by_app, (by_own t e WE). rewrite <- app_assoc. apply P2.
      inversion CM as [|? ? h k' HT CC|]; subst. inversion CC as [| |? ? ? h' k'' HH CC']; subst.
      replace ([e] ++ h ++ h' ++ End (who e) a (outcome a (subs w (target a))) :: k'')
        with ((e :: h ++ h') ++ End (who e) a (outcome a (subs w (target a))) :: k'') by (cbn; rewrite <- app_assoc; reflexivity).
      constructor; [|exact CC']. rewrite (skipn_nth _ _ _ N). constructor; [exact HT|exact HH].
    - assert (NT : forall b j, In (b, j) (hold_of gs) -> target b <> target a).
      { intros b j I EQ. destruct (Nat.eq_dec u t) as [->|NE].
        - rewrite (put_same _ _ _ _ E) in E'. inversion E'; subst gs. pose proof (t_nodup _ T t _ E) as ND. cbn in ND. inversion ND as [|? ? NI _]; subst.
          apply NI. rewrite <- EQ. apply in_map_iff. exists (b, j). auto.
        - rewrite put_other in E' by exact NE. destruct (t_hold _ T u gs b j E' I) as (H1 & _).
          destruct (t_hold _ T t _ a i E (or_introl eq_refl)) as (H2 & _). congruence. }
      assert (SB : forall b j, In (b, j) (hold_of gs) -> set_at (subs w) (target a) (after a (subs w (target a))) (target b) = subs w (target b))
        by (intros b j I; apply set_other, (NT b j I)).
      destruct (Nat.eq_dec u t) as [->|NE]; [|apply (OTH (End t a (outcome a (subs w (target a)))) _ _ eq_refl NE E'); exact SB].
      rewrite (put_same _ _ _ _ E) in E'. inversion E'; subst gs. destruct (G t _ E) as (p & P1 & P2). exists p. split; [exact P1|].
      intros k CM. rewrite by_app, by_own by reflexivity. rewrite <- app_assoc. apply P2.
      apply (comp_hold (subs w) t a i fs [] k); [rewrite skipn_all2 by exact LE; constructor|]. eapply comp_ext; [exact SB|exact CM].
  Qed.
  Lemma goes_on_start progs : goes_on progs (tstart progs).
  Proof.
    intros t fs H. cbn in H. rewrite nth_error_map in H. destruct (nth_error progs t) as [p|]; inversion H; subst. exists p. split; [reflexivity|].
    intros k C. cbn. inversion C as [|? ? h k' HT CC|]; subst. inversion CC; subst. rewrite app_nil_r. exact HT.
  Qed.
  Lemma reach_goes_on progs sched w : trun (tstart progs) sched = Ok w -> goes_on progs w.
  Proof.
    intros R. assert (X : tinv w /\ goes_on progs w); [|apply X]. revert R. apply (run_ind (fun w => tinv w /\ goes_on progs w)); [|split; [apply tinv_start|apply goes_on_start]].
    intros w0 t w1 (I & J) E. apply step_kind in E. split; [eapply kind_tinv; eassumption|eapply kind_goes_on; eassumption].
  Qed.
  Lemma put_length {A} (l : list A) k x : length (put l k x) = length l.
  Proof. revert k. induction l as [|y l IH]; intros [|k]; cbn; auto. Qed.
  Lemma reach_length progs sched w : trun (tstart progs) sched = Ok w -> length (stacks w) = length progs.
  Proof.
    apply (run_ind (fun w => length (stacks w) = length progs)); [|cbn; apply map_length]. intros w0 t w1 I E. apply step_kind in E. rewrite <- I. destruct E; cbn; apply put_length.
  Qed.

  (** ** Forwarding downwards *)
  Variable rank : nat -> nat.
  Notation rk a := (rank (target a)).
  Hypothesis DOWN : downwards rank on_data on_disc.

  Fixpoint ordered (fs : list frame) : Prop :=
    match fs with
    | [] => True
    | Body l :: r => (forall a h, In a l -> In h (hold_of r) -> (rk a < rk (fst h))%nat) /\ ordered r
    | Holding a _ :: r => (forall h, In h (hold_of r) -> (rk a < rk (fst h))%nat) /\ ordered r
    end.
  Definition all_ordered (w : tworld) : Prop := forall t fs, nth_error (stacks w) t = Some fs -> ordered fs.

  Lemma called_down a b : (exists o x v, a = NotifyObs x v /\ b = on_data o x v) \/ (exists o x, a = ClearObs x /\ b = on_disc o x) ->
    forall c, In c b -> (rk c < rk a)%nat.
  Proof. destruct DOWN as (D1 & D2). intros [(o & x & v & -> & ->)|(o & x & -> & ->)] c H; cbn; eauto. Qed.

  Lemma kind_ordered w t w' : all_ordered w -> kind w t w' -> all_ordered w'.
  Proof.
    intros O K. assert (G : forall old new, nth_error (stacks w) t = Some old -> (ordered old -> ordered new) ->
      forall u fs, nth_error (put (stacks w) t new) u = Some fs -> ordered fs).
    { intros old new E H u fs EU. destruct (Nat.eq_dec u t) as [->|NE].
      - rewrite (put_same _ _ _ _ E) in EU. inversion EU; subst fs. apply H, (O t old E).
      - rewrite put_other in EU by exact NE. apply (O u fs EU). }
    destruct K as [fs E|a r fs E L|a i fs e b E N C WE HB B|a i fs E LE]; unfold all_ordered; cbn [stacks];
      apply (G _ _ E); cbn [ordered]; intros (H1 & H2).
    - exact H2.
    - split; [|split].
      + intros h I. apply (H1 a h); [left; reflexivity|exact I].
      + intros c h I J. apply (H1 c h); [right; exact I|exact J].
      + exact H2.
    - split; [|split; [exact H1|exact H2]]. intros c h I J. pose proof (called_down a b B c I) as LT. cbn in J.
      destruct J as [<-|J]; [exact LT|]. specialize (H1 h J). cbn. lia.
    - exact H2.
  Qed.
  Lemma ordered_start progs : all_ordered (tstart progs).
  Proof.
    intros t fs H. cbn in H. rewrite nth_error_map in H. destruct (nth_error progs t); inversion H; subst.
    cbn. split; [|exact I]. intros a h _ [].
  Qed.
  Lemma reach_ordered progs sched w : trun (tstart progs) sched = Ok w -> all_ordered w.
  Proof.
    apply run_ind; [|apply ordered_start]. intros w0 t w1 I E. eapply kind_ordered; [exact I|]. apply step_kind, E.
  Qed.

  Lemma step_defined w t : tinv w -> all_ordered w -> exists r, tstep w t = Ok r.
  Proof.
    intros T O. unfold ObsThreadsModel.tstep. destruct (nth_error (stacks w) t) as [[|[[|a r]|a i] fs]|] eqn:E; eauto.
    - destruct (lock w (target a)) as [u|] eqn:L; eauto. destruct (Nat.eqb_spec u t) as [->|NE]; eauto. exfalso.
      destruct (t_lock _ T _ _ L) as (gs & b & j & H1 & H2 & H3). rewrite E in H1. inversion H1; subst gs. cbn in H2.
      destruct (O t _ E) as (H & _). specialize (H a (b, j) (or_introl eq_refl) H2). cbn in H. rewrite H3 in H. lia.
    - destruct a as [x o|x o|x|x v]; cbn; try (destruct (member o (subs w x))); try (destruct (nth_error (subs w x) i)); eauto.
  Qed.
  Lemma run_defined sched : forall w, tinv w -> all_ordered w -> exists w', trun w sched = Ok w'.
  Proof.
    induction sched as [|t sched IH]; intros w T O; cbn [ObsThreadsModel.trun]; [eauto|].
    destruct (step_defined w t T O) as (r & E). rewrite E. destruct r as [w1|]; [|apply IH; assumption].
    pose proof (step_kind _ _ _ E) as K. apply IH; [eapply kind_tinv; eassumption|eapply kind_ordered; eassumption].
  Qed.

  (** Somebody can go on. *)
  Lemma chain_moves w : tinv w -> all_ordered w -> forall n t fs a r, nth_error (stacks w) t = Some (Body (a :: r) :: fs) -> rk a = n ->
    exists u w', tstep w u = Ok (Some w').
  Proof.
    intros T O. induction n as [n IH] using lt_wf_ind. intros t fs a r E RK.
    destruct (lock w (target a)) as [u|] eqn:L.
    - destruct (t_lock _ T _ _ L) as (gs & b & j & H1 & H2 & H3).
      destruct gs as [|[[|c s]|c i] gs]; [destruct H2|..].
      + exists u. unfold ObsThreadsModel.tstep. rewrite H1. eauto.
      + apply (IH (rk c)) with (t := u) (fs := gs) (a := c) (r := s); [|exact H1|reflexivity].
        destruct (O u _ H1) as (H & _). specialize (H c (b, j) (or_introl eq_refl) H2). cbn in H. rewrite H3 in H. lia.
      + exists u. unfold ObsThreadsModel.tstep. rewrite H1.
        destruct c as [x o|x o|x|x v]; cbn; try (destruct (member o (subs w x))); try (destruct (nth_error (subs w x) i)); eauto.
    - exists t. unfold ObsThreadsModel.tstep. rewrite E, L. eauto.
  Qed.
  Lemma somebody_moves w : tinv w -> all_ordered w -> ~ finished w -> exists u w', tstep w u = Ok (Some w').
  Proof.
    intros T O NF. assert (X : exists t fs, nth_error (stacks w) t = Some fs /\ fs <> []).
    { clear - NF. unfold finished in NF. generalize dependent (stacks w). intros l. induction l as [|s l IH]; intros NF.
      - exfalso. apply NF. intros [|t] s H; discriminate.
      - destruct s as [|f s]; [|exists 0%nat, (f :: s); split; [reflexivity|discriminate]].
        destruct IH as (t & fs & H1 & H2); [|exists (S t), fs; auto]. intros H. apply NF. intros [|t] s E; [inversion E; reflexivity|apply (H t s E)]. }
    destruct X as (t & fs & E & NE). destruct fs as [|[[|a r]|a i] fs]; [congruence|..].
    - exists t. unfold ObsThreadsModel.tstep. rewrite E. eauto.
    - eapply (chain_moves w T O (rk a)); [exact E|reflexivity].
    - exists t. unfold ObsThreadsModel.tstep. rewrite E.
      destruct a as [x o|x o|x|x v]; cbn; try (destruct (member o (subs w x))); try (destruct (nth_error (subs w x) i)); eauto.
  Qed.

  (** ** Every execution ends *)
  Fixpoint vec (n : nat) : Type := match n with O => nat | S k => (nat * (nat * vec k))%type end.
  Fixpoint vlt (n : nat) : vec n -> vec n -> Prop :=
    match n return vec n -> vec n -> Prop with
    | O => lt
    | S k => slexprod nat (nat * vec k) lt (slexprod nat (vec k) lt (vlt k))
    end.
  Lemma vlt_wf n : well_founded (vlt n).
  Proof. induction n as [|n IH]; cbn; [apply lt_wf|]. apply wf_slexprod; [apply lt_wf|]. apply wf_slexprod; [apply lt_wf|exact IH]. Qed.

  Fixpoint sum {A} (f : A -> nat) (l : list A) : nat := match l with [] => 0%nat | x :: r => (f x + sum f r)%nat end.
  Lemma sum_put {A} (f : A -> nat) l k x y : nth_error l k = Some x -> (sum f (put l k y) + f x = sum f l + f y)%nat.
  Proof. revert k. induction l as [|z l IH]; intros [|k] H; cbn in *; try discriminate; [inversion H; lia|]. specialize (IH k H). lia. Qed.
  Lemma sum_ext {A} (f g : A -> nat) l : (forall x, In x l -> f x = g x) -> sum f l = sum g l.
  Proof. induction l as [|x l IH]; intros H; cbn; [reflexivity|]. rewrite (H x (or_introl eq_refl)), IH; [reflexivity|]. intros; apply H; right; assumption. Qed.

  Definition pend1 (k : nat) (fs : list frame) : nat :=
    sum (fun f => match f with Body l => sum (fun a => if (rk a =? k)%nat then 1 else 0)%nat l | Holding _ _ => 0%nat end) fs.
  Definition iter1 (sb : nat -> list nat) (k : nat) (fs : list frame) : nat :=
    sum (fun h => if (rk (fst h) =? k)%nat then (S (length (sb (target (fst h)))) - snd h)%nat else 0%nat) (hold_of fs).
  Definition pend (k : nat) (w : tworld) : nat := sum (pend1 k) (stacks w).
  Definition iter (k : nat) (w : tworld) : nat := sum (iter1 (subs w) k) (stacks w).
  Definition frames (w : tworld) : nat := sum (fun fs : list frame => length fs) (stacks w).
  Fixpoint meas (n : nat) (w : tworld) : vec n :=
    match n return vec n with O => frames w | S k => (pend k w, (iter k w, meas k w)) end.

  Lemma meas_at n k w w' : (k < n)%nat ->
    (forall j, (k < j < n)%nat -> pend j w' = pend j w /\ iter j w' = iter j w) ->
    (pend k w' < pend k w)%nat \/ (pend k w' = pend k w /\ (iter k w' < iter k w)%nat) ->
    vlt n (meas n w') (meas n w).
  Proof.
    induction n as [|n IH]; intros L H D; [lia|]. cbn [vlt meas]. destruct (Nat.eq_dec k n) as [->|NE].
    - destruct D as [D|(-> & D)]; [left; exact D|right; left; exact D].
    - destruct (H n ltac:(lia)) as (-> & ->). right. right. apply IH; [lia| |exact D]. intros j J. apply H. lia.
  Qed.
  Lemma meas_frames n w w' : (forall j, (j < n)%nat -> pend j w' = pend j w /\ iter j w' = iter j w) ->
    (frames w' < frames w)%nat -> vlt n (meas n w') (meas n w).
  Proof.
    induction n as [|n IH]; intros H D; cbn [vlt meas]; [exact D|].
    destruct (H n ltac:(lia)) as (-> & ->). right. right. apply IH; [|exact D]. intros j J. apply H. lia.
  Qed.

  Lemma calls_length t a l : (length (calls t a l) <= length l)%nat.
  Proof. destruct a; cbn; rewrite ?map_length; lia. Qed.
  Lemma pend_body j l fs : pend1 j (Body l :: fs) = (sum (fun a => if (rk a =? j)%nat then 1 else 0)%nat l + pend1 j fs)%nat.
  Proof. reflexivity. Qed.
  Lemma iter_body sb j l fs : iter1 sb j (Body l :: fs) = iter1 sb j fs.
  Proof. reflexivity. Qed.
  Lemma iter_hold sb j a i fs : iter1 sb j (Holding a i :: fs) =
    ((if (rk a =? j)%nat then (S (length (sb (target a))) - i)%nat else 0%nat) + iter1 sb j fs)%nat.
  Proof. reflexivity. Qed.
  Lemma low_body j k l : (forall c, In c l -> (rk c < k)%nat) -> (k <= j)%nat -> sum (fun a => if (rk a =? j)%nat then 1 else 0)%nat l = 0%nat.
  Proof.
    intros H LE. rewrite (sum_ext _ (fun _ => 0%nat)).
    - induction l as [|x l IH]; cbn; [reflexivity|]. apply IH. intros; apply H; right; assumption.
    - intros x I. specialize (H x I). replace (rk x =? j)%nat with false by (symmetry; apply Nat.eqb_neq; lia). reflexivity.
  Qed.

  Definition bounded (n : nat) (w : tworld) : Prop :=
    forall t fs f, nth_error (stacks w) t = Some fs -> In f fs ->
      match f with Body l => forall a, In a l -> (rk a < n)%nat | Holding a _ => (rk a < n)%nat end.
  Lemma kind_bounded n w t w' : bounded n w -> kind w t w' -> bounded n w'.
  Proof.
    intros B K. assert (G : forall old new, nth_error (stacks w) t = Some old ->
      (forall f, In f new -> match f with Body l => forall a, In a l -> (rk a < n)%nat | Holding a _ => (rk a < n)%nat end) ->
      forall u fs f, nth_error (put (stacks w) t new) u = Some fs -> In f fs ->
      match f with Body l => forall a, In a l -> (rk a < n)%nat | Holding a _ => (rk a < n)%nat end).
    { intros old new E H u fs f EU I. destruct (Nat.eq_dec u t) as [->|NE].
      - rewrite (put_same _ _ _ _ E) in EU. inversion EU; subst fs. apply H, I.
      - rewrite put_other in EU by exact NE. apply (B u fs f EU I). }
    destruct K as [fs E|a r fs E L|a i fs e b E N C WE HB D|a i fs E LE]; unfold bounded; cbn [stacks]; apply (G _ _ E); intros f I.
    - apply (B t _ f E). right. exact I.
    - destruct I as [<-|[<-|I]].
      + apply (B t _ (Body (a :: r)) E (or_introl eq_refl)). left. reflexivity.
      + intros c J. apply (B t _ (Body (a :: r)) E (or_introl eq_refl)). right. exact J.
      + apply (B t _ f E). right. exact I.
    - pose proof (B t _ (Holding a i) E (or_introl eq_refl)) as LA. cbn in LA. destruct I as [<-|[<-|I]].
      + intros c J. pose proof (called_down a b D c J). lia.
      + exact LA.
      + apply (B t _ f E). right. exact I.
    - apply (B t _ f E). right. exact I.
  Qed.

  Lemma kind_lower n w t w' : tinv w -> bounded n w -> kind w t w' -> vlt n (meas n w') (meas n w).
  Proof.
    intros T B K. destruct K as [fs E|a r fs E L|a i fs e b E N C WE HB D|a i fs E LE].
    - apply meas_frames.
      + intros j _. unfold pend, iter. cbn [stacks subs].
        pose proof (sum_put (pend1 j) _ _ _ fs E) as P. pose proof (sum_put (iter1 (subs w) j) _ _ _ fs E) as Q.
        rewrite pend_body in P. cbn in P. change (iter1 (subs w) j (Body [] :: fs)) with (iter1 (subs w) j fs) in Q. lia.
      + unfold frames. cbn [stacks]. pose proof (sum_put (fun fs : list frame => length fs) _ _ _ fs E) as P. cbn in P. lia.
    - assert (RK : (rk a < n)%nat) by (apply (B t _ (Body (a :: r)) E (or_introl eq_refl)); left; reflexivity).
      apply (meas_at n (rk a)); [exact RK| |].
      + intros j J. unfold pend, iter. cbn [stacks subs].
        pose proof (sum_put (pend1 j) _ _ _ (Holding a 0 :: Body r :: fs) E) as P.
        pose proof (sum_put (iter1 (subs w) j) _ _ _ (Holding a 0 :: Body r :: fs) E) as Q.
        change (pend1 j (Holding a 0 :: Body r :: fs)) with (pend1 j (Body r :: fs)) in P. rewrite !pend_body in P. cbn [sum] in P.
        rewrite ?iter_body, ?iter_hold, ?iter_body in Q. replace (rk a =? j)%nat with false in * by (symmetry; apply Nat.eqb_neq; lia).
        lia.
      + left. unfold pend. cbn [stacks]. pose proof (sum_put (pend1 (rk a)) _ _ _ (Holding a 0 :: Body r :: fs) E) as P.
        change (pend1 (rk a) (Holding a 0 :: Body r :: fs)) with (pend1 (rk a) (Body r :: fs)) in P. rewrite !pend_body in P.
        cbn [sum] in P. rewrite Nat.eqb_refl in P. lia.
    - assert (RK : (rk a < n)%nat) by (apply (B t _ (Holding a i) E (or_introl eq_refl))).
      assert (IL : (i < length (subs w (target a)))%nat).
      { assert (H : nth_error (calls t a (subs w (target a))) i <> None) by congruence. apply nth_error_Some in H.
        pose proof (calls_length t a (subs w (target a))). lia. }
      assert (PJ : forall j, (rk a <= j)%nat -> pend j (TW (subs w) (lock w) (put (stacks w) t (Body b :: Holding a (S i) :: fs)) (hist w ++ [e])) = pend j w).
      { intros j J. unfold pend. cbn [stacks]. pose proof (sum_put (pend1 j) _ _ _ (Body b :: Holding a (S i) :: fs) E) as P.
        rewrite pend_body, (low_body j (rk a)) in P; [|apply (called_down a b D)|exact J].
        change (pend1 j (Holding a (S i) :: fs)) with (pend1 j (Holding a i :: fs)) in P. lia. }
      apply (meas_at n (rk a)); [exact RK| |].
      + intros j J. split; [apply PJ; lia|]. unfold iter. cbn [stacks subs].
        pose proof (sum_put (iter1 (subs w) j) _ _ _ (Body b :: Holding a (S i) :: fs) E) as Q.
        rewrite ?iter_body, ?iter_hold, ?iter_body in Q. replace (rk a =? j)%nat with false in * by (symmetry; apply Nat.eqb_neq; lia). lia.
      + right. split; [apply PJ; lia|]. unfold iter. cbn [stacks subs].
        pose proof (sum_put (iter1 (subs w) (rk a)) _ _ _ (Body b :: Holding a (S i) :: fs) E) as Q.
        rewrite ?iter_body, ?iter_hold in Q. rewrite Nat.eqb_refl in Q. lia.
    - assert (RK : (rk a < n)%nat) by (apply (B t _ (Holding a i) E (or_introl eq_refl))).
      destruct (t_hold _ T t _ a i E (or_introl eq_refl)) as (HL & IL & _).
      assert (SAME : forall j gs, In gs (put (stacks w) t fs) ->
                iter1 (set_at (subs w) (target a) (after a (subs w (target a)))) j gs = iter1 (subs w) j gs).
      { intros j gs I. apply In_nth_error in I. destruct I as (u & I). apply sum_ext. intros [c m] J. cbn [fst snd].
        rewrite set_other; [reflexivity|]. intros EQ. destruct (Nat.eq_dec u t) as [->|NE].
        - rewrite (put_same _ _ _ _ E) in I. inversion I; subst gs. pose proof (t_nodup _ T t _ E) as ND. cbn in ND. inversion ND as [|? ? NI _]; subst.
          apply NI. rewrite <- EQ. apply in_map_iff. exists (c, m). auto.
        - rewrite put_other in I by exact NE. destruct (t_hold _ T u gs c m I J) as (H1 & _). congruence. }
      assert (PJ : forall j, sum (pend1 j) (put (stacks w) t fs) = pend j w).
      { intros j. unfold pend. pose proof (sum_put (pend1 j) _ _ _ fs E) as P. change (pend1 j (Holding a i :: fs)) with (pend1 j fs) in P. lia. }
      apply (meas_at n (rk a)); [exact RK| |].
      + intros j J. split; [apply PJ|]. unfold iter. cbn [stacks subs]. rewrite (sum_ext _ _ _ (SAME j)).
        pose proof (sum_put (iter1 (subs w) j) _ _ _ fs E) as Q.
        rewrite ?iter_body, ?iter_hold, ?iter_body in Q. replace (rk a =? j)%nat with false in * by (symmetry; apply Nat.eqb_neq; lia). lia.
      + right. split; [apply PJ|]. unfold iter. cbn [stacks subs]. rewrite (sum_ext _ _ _ (SAME (rk a))).
        pose proof (sum_put (iter1 (subs w) (rk a)) _ _ _ fs E) as Q.
        rewrite ?iter_body, ?iter_hold in Q. rewrite Nat.eqb_refl in Q.
        pose proof (calls_length t a (subs w (target a))). lia.
  Qed.

  Lemma ends n w : tinv w -> bounded n w -> Acc (fun w2 w1 => exists t, tstep w1 t = Ok (Some w2)) w.
  Proof.
    intros T B. remember (meas n w) as m eqn:EM. revert w T B EM. induction m as [m IH] using (well_founded_induction (vlt_wf n)).
    intros w T B ->. constructor. intros w2 (t & E). apply step_kind in E.
    apply (IH (meas n w2)); [apply (kind_lower n w t w2 T B E)|eapply kind_tinv; eassumption|eapply kind_bounded; eassumption|reflexivity].
  Qed.
  Lemma bounded_start progs : exists n, bounded n (tstart progs).
  Proof.
    exists (S (fold_right (fun a m => Nat.max (rk a) m) 0%nat (concat progs))).
    intros t fs f H I. cbn in H. rewrite nth_error_map in H. destruct (nth_error progs t) as [p|] eqn:E; inversion H; subst fs.
    destruct I as [<-|[]]. intros a J. apply nth_error_In in E.
    assert (IC : In a (concat progs)) by (apply in_concat; eauto). clear - IC. induction (concat progs) as [|x l IH]; [destruct IC|].
    cbn. destruct IC as [<-|IC]; [lia|]. specialize (IH IC). lia.
  Qed.
  Lemma reach_bounded n progs sched w : bounded n (tstart progs) -> trun (tstart progs) sched = Ok w -> bounded n w.
  Proof.
    intros B. apply run_ind; [|exact B]. intros w0 t w1 I E. eapply kind_bounded; [exact I|]. apply step_kind, E.
  Qed.
  (** Turns for everybody again and again. *)
  Lemma fair_ends w : Acc (fun w2 w1 => exists t, tstep w1 t = Ok (Some w2)) w -> tinv w -> all_ordered w ->
    forall turns, fair turns -> forall n, exists k w', trun w (map turns (seq n k)) = Ok w' /\ finished w'.
  Proof.
    intros A. induction A as [w _ IH]. intros T O turns F n.
    assert (D : finished w \/ ~ finished w).
    { unfold finished. clear. generalize (stacks w). intros l. induction l as [|s l [IH|IH]].
      - left. intros [|t] s H; discriminate.
      - destruct s as [|f s]; [left|right; intros H; specialize (H 0%nat _ eq_refl); discriminate].
        intros [|t] s H; [inversion H; reflexivity|apply (IH t s H)].
      - right. intros H. apply IH. intros t s' E. apply (H (Datatypes.S t) s' E). }
    destruct D as [D|D]; [exists 0%nat, w; split; [reflexivity|exact D]|].
    destruct (somebody_moves w T O D) as (u & wu & EU). destruct (F u n) as (m & LE & EM).
    remember (m - n)%nat as d eqn:ED. revert n LE ED. induction d as [|d IHd]; intros n LE ED.
    - assert (n = m) by lia. subst n. pose proof (step_kind _ _ _ EU) as K.
      destruct (IH wu (ex_intro _ u EU) ltac:(eapply kind_tinv; eassumption) ltac:(eapply kind_ordered; eassumption) turns F (S m)) as (k & w' & R & FI).
      exists (S k), w'. split; [|exact FI]. cbn [seq map ObsThreadsModel.trun]. rewrite EM, EU. exact R.
    - destruct (step_defined w (turns n) T O) as ([w1|] & E1).
      + pose proof (step_kind _ _ _ E1) as K.
        destruct (IH w1 (ex_intro _ _ E1) ltac:(eapply kind_tinv; eassumption) ltac:(eapply kind_ordered; eassumption) turns F (S n)) as (k & w' & R & FI).
        exists (S k), w'. split; [|exact FI]. cbn [seq map ObsThreadsModel.trun]. rewrite E1. exact R.
      + destruct (IHd (S n) ltac:(lia) ltac:(lia)) as (k & w' & R & FI). exists (S k), w'. split; [|exact FI].
        cbn [seq map ObsThreadsModel.trun]. rewrite E1. exact R.
  Qed.
End Th.
