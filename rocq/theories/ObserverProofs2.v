(** Invariant of the static observable under arbitrary callbacks. *)
From Verif Require Export ObserverProofs1.

Section Inv.
  Context {V : Type}.
  Variable self : addr.
  Variable Max : Z.
  Notation cap := (max_observers Max).

  (** Every answer in the log is the one the ordered-set reading dictates and
      every callback goes to an observer that was registered. *)
  Inductive good : list (ev V) -> Prop :=
  | good_nil : good []
  | good_add log o :
      good log -> good (log ++ [Ret (Add o) (add_answer cap (members log) o)])
  | good_remove log o :
      good log -> good (log ++ [Ret (Remove o) (remove_answer (members log) o)])
  | good_clear log : good log -> good (log ++ [Ret Clear ok])
  | good_notify log v e : good log -> good (log ++ [Ret (Notify v) e])
  | good_data log o v : good log -> was_added log o -> good (log ++ [Data self o v])
  | good_disc log o : good log -> was_added log o -> good (log ++ [Disc self o]).

  Lemma members_snoc (log : list (ev V)) e : members (log ++ [e]) = member_step (members log) e.
  Proof. unfold members. rewrite fold_left_app. reflexivity. Qed.

  Lemma was_added_app (log evs : list (ev V)) o : was_added log o -> was_added (log ++ evs) o.
  Proof. unfold was_added. rewrite in_app_iff. tauto. Qed.

  (** The first [n] slots are not null. *)
  Definition nz (w : world V) (n : nat) : Prop :=
    exists l t, w_slots w = map Some l ++ t /\ length l = n.

  Record inv (w : world V) : Prop := {
    i_len : length (w_slots w) = cap;
    i_repr : exists t, w_slots w = map Some (members (w_log w)) ++ t;
    i_cnt : w_cnt w = length (members (w_log w));
    i_nodup : NoDup (members (w_log w));
    i_added : forall o, In (Some o) (w_slots w) -> was_added (w_log w) o;
    i_good : good (w_log w)
  }.

  Lemma inv_le w : inv w -> (w_cnt w <= cap)%nat.
  Proof.
    intros [H1 [t H2] H3 _ _ _]. rewrite H3, <- H1, H2, app_length, map_length. lia.
  Qed.

  (** Events while a notification is in progress. *)
  Definition hushed (e : ev V) : Prop :=
    match e with
    | Data _ _ _ => False
    | Ret (Notify _) r => r = notify_recursion_detected
    | _ => True
    end.

  (** What any amount of activity does to the world. *)
  Record ext (w w' : world V) : Prop := {
    e_inv : inv w';
    e_inside : w_inside w' = w_inside w;
    e_nz : forall n, nz w n -> nz w' n;
    e_log : exists evs, w_log w' = w_log w ++ evs /\
              (w_inside w = true -> Forall hushed evs)
  }.

  Lemma ext_refl w : inv w -> ext w w.
  Proof.
    intros H. split; try tauto. exists []. rewrite app_nil_r. split; [reflexivity|]. intros _. constructor.
  Qed.

  Lemma ext_trans a b c : ext a b -> ext b c -> ext a c.
  Proof.
    intros [A1 A2 A3 (e1 & A4 & A5)] [B1 B2 B3 (e2 & B4 & B5)]. split.
    - exact B1.
    - congruence.
    - intros n H. apply B3, A3, H.
    - exists (e1 ++ e2). rewrite B4, A4, app_assoc. split; [reflexivity|].
      intros H. apply Forall_app. split; [apply A5, H|]. apply B5. congruence.
  Qed.

  Lemma inv_fresh : inv (fresh Max).
  Proof.
    unfold fresh, fresh_slots. split; cbn [w_slots w_log w_cnt].
    - apply repeat_length.
    - exists (repeat None cap). reflexivity.
    - reflexivity.
    - constructor.
    - intros o H. apply repeat_spec in H. discriminate.
    - constructor.
  Qed.

  (** An entry into a callback. *)
  Lemma ext_entry w e o :
    inv w -> was_added (w_log w) o -> e = Disc self o \/ (exists v, e = Data self o v) ->
    inv (emit w e) /\ (forall n, nz w n -> nz (emit w e) n).
  Proof.
    intros [H1 H2 H3 H4 H5 H6] HA HE. split.
    - unfold emit. split; cbn [w_slots w_cnt w_log].
      + exact H1.
      + rewrite members_snoc. destruct HE as [->|[v ->]]; exact H2.
      + rewrite members_snoc. destruct HE as [->|[v ->]]; exact H3.
      + rewrite members_snoc. destruct HE as [->|[v ->]]; exact H4.
      + intros x Hx. apply was_added_app. auto.
      + destruct HE as [->|[v ->]]; constructor; assumption.
    - intros n Hn. exact Hn.
  Qed.

  (** A non-null slot can be called, and its observer was registered. *)
  Lemma nz_slot w n i : inv w -> nz w n -> (i < n)%nat ->
    exists o, slot (w_slots w) i = Ok (Some o) /\ was_added (w_log w) o.
  Proof.
    intros I (l & t & N1 & N2) L.
    destruct (nth_error l i) as [o|] eqn:E; [|apply nth_error_None in E; lia].
    assert (ES : nth_error (w_slots w) i = Some (Some o)).
    { rewrite N1, nth_error_app1 by (rewrite map_length; lia). apply map_nth_error. exact E. }
    exists o. unfold slot. rewrite ES. split; [reflexivity|].
    apply (i_added w I). eapply nth_error_In. exact ES.
  Qed.

  Lemma nz_cnt w : inv w -> nz w (w_cnt w).
  Proof.
    intros [H1 [t H2] H3 _ _ _]. exists (members (w_log w)), t. split; [exact H2|symmetry; exact H3].
  Qed.

  (** Clearing. *)
  Lemma inv_cleared w : inv w ->
    inv (emit (W (w_slots w) 0 (w_inside w) (w_log w)) (Ret Clear ok)) /\
    forall n, nz w n -> nz (emit (W (w_slots w) 0 (w_inside w) (w_log w)) (Ret Clear ok)) n.
  Proof.
    intros [H1 H2 H3 H4 H5 H6]. split.
    - unfold emit. split; cbn [w_slots w_cnt w_log].
      + exact H1.
      + rewrite members_snoc. cbn. exists (w_slots w). reflexivity.
      + rewrite members_snoc. reflexivity.
      + rewrite members_snoc. constructor.
      + intros x Hx. apply was_added_app. auto.
      + constructor. exact H6.
    - intros n H. exact H.
  Qed.

  Lemma inv_notify_ret w v e i :
    inv w -> inv (emit (W (w_slots w) (w_cnt w) i (w_log w)) (Ret (Notify v) e)).
  Proof.
    intros [H1 H2 H3 H4 H5 H6]. unfold emit. split; cbn [w_slots w_cnt w_log].
    - exact H1.
    - rewrite members_snoc. exact H2.
    - rewrite members_snoc. exact H3.
    - rewrite members_snoc. exact H4.
    - intros x Hx. apply was_added_app. auto.
    - constructor. exact H6.
  Qed.

  Lemma inv_flag w i : inv w -> inv (W (w_slots w) (w_cnt w) i (w_log w)).
  Proof. intros [H1 H2 H3 H4 H5 H6]. split; cbn; assumption. Qed.

  Variable on_data : list (ev V) -> addr -> V -> body V.
  Variable on_disc : list (ev V) -> addr -> body V.
  Notation run := (run self Max on_data on_disc).

  Lemma run_add fuel w o :
    inv w ->
    exists w', run (S fuel) w (Add o) = Ok (w', add_answer cap (members (w_log w)) o) /\
      ext w w' /\ w_log w' = w_log w ++ [Ret (Add o) (add_answer cap (members (w_log w)) o)].
  Proof.
    intros I. destruct I as [H1 [t H2] H3 H4 H5 H6].
    set (l := members (w_log w)) in *.
    destruct (add_repr Max l t o) as (t' & E1 & E2 & E3); [rewrite <- H2; exact H1|].
    cbn [ObserverModel.run]. rewrite H2, H3, E1. cbn [bind].
    eexists. split; [reflexivity|].
    set (r := add_answer cap l o) in *.
    assert (EM : members (w_log w ++ [Ret (Add o) r]) = match r with ok => l ++ [o] | _ => l end).
    { rewrite members_snoc. fold l. destruct r; reflexivity. }
    split; [|reflexivity].
    assert (SH : forall n, nz w n ->
              exists l0 t0, map Some (match r with ok => l ++ [o] | _ => l end) ++ t' = map Some l0 ++ t0
                            /\ length l0 = n).
    { intros n (l0 & t0 & N1 & N2).
      destruct r eqn:Er; try (rewrite <- (E3 ltac:(discriminate)), <- H2; exists l0, t0; split; assumption).
      destruct (E2 eq_refl) as [x Ex]. subst t.
      rewrite H2 in N1.
      destruct (Nat.le_gt_cases n (length l)) as [L|L].
      - exists (firstn n l), (map Some (skipn n l) ++ Some o :: t'). split.
        + rewrite app_assoc, <- map_app, firstn_skipn, map_app, <- app_assoc. reflexivity.
        + rewrite firstn_length. lia.
      - (* l0 reaches over the new slot *)
        exists (l ++ o :: skipn (S (length l)) l0), t0. split.
        + rewrite !map_app. cbn [map]. rewrite <- !app_assoc. cbn [app]. f_equal. f_equal.
          assert (N3 : skipn (S (length l)) (map Some l ++ x :: t')
                       = skipn (S (length l)) (map Some l0 ++ t0)) by (rewrite N1; reflexivity).
          rewrite !skipn_app, !map_length in N3.
          rewrite (skipn_all2 (map Some l)) in N3 by (rewrite map_length; lia).
          replace (S (length l) - length l)%nat with 1%nat in N3 by lia.
          replace (S (length l) - length l0)%nat with 0%nat in N3 by lia.
          rewrite skipn_map in N3. exact N3.
        + rewrite app_length. cbn [length]. rewrite skipn_length. lia. }
    split.
    - unfold emit. split; cbn [w_slots w_cnt w_log w_inside].
      + rewrite <- H1, H2. destruct r eqn:Er;
        try (rewrite <- (E3 ltac:(discriminate)); reflexivity).
        destruct (E2 eq_refl) as [x Ex]. subst t.
        rewrite !map_app, !app_length. cbn. lia.
      + rewrite EM. exists t'. reflexivity.
      + rewrite EM. reflexivity.
      + rewrite EM. destruct r eqn:Er; try exact H4.
        assert (HN : ~ In o l).
        { unfold r, add_answer in Er. destruct (cap <=? length l)%nat; [discriminate|].
          destruct (in_dec Pos.eq_dec o l); [discriminate|assumption]. }
        apply NoDup_rev in H4.
        rewrite <- (rev_involutive (l ++ [o])). apply NoDup_rev.
        rewrite rev_app_distr. cbn. constructor; [rewrite <- in_rev; exact HN|exact H4].
      + intros x Hx.
        assert (HC : In (Some x) (w_slots w) \/ (r = ok /\ x = o)).
        { rewrite H2. destruct r eqn:Er;
          try (rewrite <- (E3 ltac:(discriminate)) in Hx; left; exact Hx).
          destruct (E2 eq_refl) as [y Ey]. subst t.
          rewrite !in_app_iff, map_app, in_app_iff in *. cbn in *.
          destruct Hx as [[Hx|[Hx|[]]]|Hx]; [tauto| |tauto]. inversion Hx. tauto. }
        destruct HC as [HC|[HC ->]].
        * apply was_added_app. apply H5. exact HC.
        * unfold was_added. rewrite HC. rewrite in_app_iff. right. left. reflexivity.
      + constructor. exact H6.
    - reflexivity.
    - intros n Hn. destruct (SH n Hn) as (l0 & t0 & S1 & S2). exists l0, t0. split; assumption.
    - eexists. split; [reflexivity|]. intros _. repeat constructor.
  Qed.

  Lemma run_remove fuel w o :
    inv w ->
    exists w', run (S fuel) w (Remove o) = Ok (w', remove_answer (members (w_log w)) o) /\
      ext w w' /\ w_log w' = w_log w ++ [Ret (Remove o) (remove_answer (members (w_log w)) o)].
  Proof.
    intros I. pose proof (inv_le w I) as HLE. destruct I as [H1 [t H2] H3 H4 H5 H6].
    set (l := members (w_log w)) in *.
    destruct (remove_repr Max l t o) as (g & E1 & E2 & E3); [lia|].
    cbn [ObserverModel.run]. rewrite H2, H3, E1. cbn [bind].
    eexists. split; [reflexivity|].
    set (r := remove_answer l o) in *.
    assert (EM : members (w_log w ++ [Ret (Remove o) r]) = remove Pos.eq_dec o l).
    { rewrite members_snoc. fold l. unfold r, remove_answer.
      destruct (in_dec Pos.eq_dec o l) as [H|H]; [reflexivity|].
      cbn [member_step]. symmetry. apply remove_notin. exact H. }
    split; [|reflexivity].
    assert (LG : length (remove Pos.eq_dec o l ++ g) = length l) by (rewrite app_length; lia).
    split.
    - unfold emit. split; cbn [w_slots w_cnt w_log w_inside].
      + rewrite <- H1, H2. rewrite !app_length, !map_length. lia.
      + rewrite EM. exists (map Some g ++ t). rewrite map_app, app_assoc. reflexivity.
      + rewrite EM. reflexivity.
      + rewrite EM. clear - H4. induction l as [|x l IH]; [constructor|]. inversion H4; subst.
        cbn. destruct (Pos.eq_dec o x); [auto|]. constructor; [|auto].
        intros HI. apply in_remove in HI. tauto.
      + intros x Hx. apply was_added_app. apply H5. rewrite H2.
        rewrite in_app_iff in *. destruct Hx as [Hx|Hx]; [left|tauto].
        apply in_map_iff in Hx. destruct Hx as (y & Hy & Hx). inversion Hy; subst y.
        apply in_map. rewrite in_app_iff in Hx. destruct Hx as [Hx|Hx].
        * apply in_remove in Hx. tauto.
        * apply E3, Hx.
      + constructor. exact H6.
    - reflexivity.
    - intros n (l0 & t0 & N1 & N2). unfold nz. cbn [w_slots emit].
      destruct (Nat.le_gt_cases n (length l)) as [L|L].
      + set (m := remove Pos.eq_dec o l ++ g) in *.
        exists (firstn n m), (map Some (skipn n m) ++ t). split.
        * rewrite app_assoc, <- map_app, firstn_skipn. reflexivity.
        * rewrite firstn_length. lia.
      + exists ((remove Pos.eq_dec o l ++ g) ++ skipn (length l) l0), t0. split.
        * rewrite (map_app Some (remove Pos.eq_dec o l ++ g)), <- (app_assoc (map Some _)). f_equal.
          assert (N3 : skipn (length l) (map Some l ++ t) = skipn (length l) (map Some l0 ++ t0))
            by (rewrite <- H2, N1; reflexivity).
          rewrite !skipn_app, !map_length in N3.
          rewrite (skipn_all2 (map Some l)) in N3 by (rewrite map_length; lia).
          rewrite Nat.sub_diag in N3.
          replace (length l - length l0)%nat with 0%nat in N3 by lia.
          rewrite skipn_map in N3. exact N3.
        * rewrite app_length, skipn_length. lia.
    - eexists. split; [reflexivity|]. intros _. repeat constructor.
  Qed.

  (** Outcomes that are never undefined and only extend the world. *)
  Definition safe (w : world V) (x : res (world V)) : Prop :=
    match x with Ok w' => ext w w' | UB => False | Fuel => True end.
  Definition safe2 (w : world V) (x : res (world V * err)) : Prop :=
    match x with Ok (w', _) => ext w w' | UB => False | Fuel => True end.

  Section Step.
    Variable step : world V -> call V -> res (world V * err).
    Hypothesis step_safe : forall w c, inv w -> safe2 w (step w c).

    Lemma body_safe b : forall w, inv w -> safe w (run_body step b w).
    Proof.
      induction b as [|c k IH]; intros w I; cbn [run_body].
      - apply ext_refl. exact I.
      - pose proof (step_safe w c I) as HS. destruct (step w c) as [[w' e]| |]; cbn [bind] in *; try exact HS.
        specialize (IH e w' (e_inv _ _ HS)). destruct (run_body step (k e) w'); cbn in *; try exact IH.
        eapply ext_trans; eassumption.
    Qed.

    Lemma disc_safe i n w : inv w -> nz w n -> (i < n)%nat -> safe w (call_disc self on_disc step i w).
    Proof.
      intros I N L. destruct (nz_slot w n i I N L) as (o & S1 & S2).
      unfold call_disc. rewrite S1. cbn [bind].
      destruct (ext_entry w (Disc self o) o I S2 (or_introl eq_refl)) as [I' N'].
      assert (X : ext w (emit w (Disc self o))).
      { split; [exact I'|reflexivity|exact N'|]. eexists. split; [reflexivity|]. intros _. repeat constructor. }
      pose proof (body_safe (on_disc (w_log w) o) _ I') as B.
      destruct (run_body step (on_disc (w_log w) o) (emit w (Disc self o))); cbn in *; try exact B.
      eapply ext_trans; eassumption.
    Qed.

    Lemma loop_safe f n : (forall i w, inv w -> nz w n -> (i < n)%nat -> safe w (f i w)) ->
      forall k i w, inv w -> nz w n -> (i + k <= n)%nat -> safe w (loop f i k w).
    Proof.
      intros Hf. induction k as [|k IH]; intros i w I N L; cbn [loop].
      - apply ext_refl. exact I.
      - pose proof (Hf i w I N ltac:(lia)) as HS. destruct (f i w) as [w'| |]; cbn [bind] in *; try exact HS.
        assert (S' := IH (S i) w' (e_inv _ _ HS) (e_nz _ _ HS n N) ltac:(lia)).
        destruct (loop f (S i) k w'); cbn in *; try exact S'.
        eapply ext_trans; eassumption.
    Qed.

    (** Deliveries: with [inside] up, [k] rounds make exactly [k] deliveries of
        [v] and everything else in the stretch is hushed. *)
    Definition delivers (v : V) (k : nat) (evs : list (ev V)) : Prop :=
      length (deliveries evs) = k /\
      Forall (fun e => hushed e \/ exists o, e = Data self o v) evs.

    Lemma hushed_no_data evs : Forall hushed evs -> deliveries evs = [].
    Proof.
      induction 1 as [|e evs H _ IH]; [reflexivity|]. unfold deliveries in *. cbn.
      destruct e; cbn in *; tauto.
    Qed.

    Definition xfer (v : V) (k : nat) (w : world V) (x : res (world V)) : Prop :=
      match x with
      | Ok w' => inv w' /\ w_inside w' = w_inside w /\ (forall n, nz w n -> nz w' n) /\
                 exists evs, w_log w' = w_log w ++ evs /\ delivers v k evs
      | UB => False
      | Fuel => True
      end.

    Lemma data_xfer v i n w :
      inv w -> w_inside w = true -> nz w n -> (i < n)%nat ->
      xfer v 1 w (call_data self on_data step i v w).
    Proof.
      intros I IN N L. destruct (nz_slot w n i I N L) as (o & S1 & S2).
      unfold call_data. rewrite S1. cbn [bind].
      destruct (ext_entry w (Data self o v) o I S2) as [I' N']; [right; exists v; reflexivity|].
      pose proof (body_safe (on_data (w_log w) o v) _ I') as B.
      destruct (run_body step (on_data (w_log w) o v) (emit w (Data self o v))) as [w'| |]; cbn in *; try exact B.
      destruct B as [B1 B2 B3 (evs & B4 & B5)].
      cbn in B2, B4, B5. split; [exact B1|]. split; [exact B2|]. split; [intros m Hm; apply B3, N', Hm|].
      exists (Data self o v :: evs). rewrite B4, <- app_assoc. split; [reflexivity|].
      specialize (B5 IN). split.
      - unfold deliveries. cbn. fold (deliveries evs). rewrite hushed_no_data by exact B5. reflexivity.
      - constructor; [right; exists o; reflexivity|].
        eapply Forall_impl; [|exact B5]. cbn. tauto.
    Qed.

    Lemma loop_xfer v n : forall k i w,
      inv w -> w_inside w = true -> nz w n -> (i + k <= n)%nat ->
      xfer v k w (loop (fun i => call_data self on_data step i v) i k w).
    Proof.
      induction k as [|k IH]; intros i w I IN N L; cbn [loop].
      - cbn. split; [exact I|]. split; [reflexivity|]. split; [tauto|].
        exists []. rewrite app_nil_r. split; [reflexivity|]. split; [reflexivity|constructor].
      - pose proof (data_xfer v i n w I IN N ltac:(lia)) as HS.
        destruct (call_data self on_data step i v w) as [w'| |]; cbn [bind] in *; try exact HS.
        destruct HS as (A1 & A2 & A3 & e1 & A4 & A5 & A6).
        assert (S' := IH (S i) w' A1 ltac:(congruence) (A3 n N) ltac:(lia)).
        destruct (loop (fun i0 : nat => call_data self on_data step i0 v) (S i) k w') as [w2| |];
          cbn in *; try exact S'.
        destruct S' as (B1 & B2 & B3 & e2 & B4 & B5 & B6).
        split; [exact B1|]. split; [congruence|]. split; [intros m Hm; apply B3, A3, Hm|].
        exists (e1 ++ e2). rewrite B4, A4, app_assoc. split; [reflexivity|]. split.
        + unfold deliveries in *. rewrite filter_app, app_length. lia.
        + apply Forall_app. split; assumption.
    Qed.
  End Step.

  (** What one call does, for every callback behaviour. *)
  Definition call_post (w : world V) (c : call V) (w' : world V) (e : err) : Prop :=
    ext w w' /\
    exists evs, w_log w' = w_log w ++ evs ++ [Ret c e] /\
      (w_inside w = true -> Forall hushed (evs ++ [Ret c e])) /\
      match c with
      | Add o => evs = [] /\ e = add_answer cap (members (w_log w)) o
      | Remove o => evs = [] /\ e = remove_answer (members (w_log w)) o
      | Clear => e = ok
      | Notify v =>
        if w_inside w then evs = [] /\ e = notify_recursion_detected
        else e = ok /\ delivers v (length (members (w_log w))) evs
      end.

  Lemma run_post fuel : forall w c, inv w ->
    match run fuel w c with Ok (w', e) => call_post w c w' e | UB => False | Fuel => True end.
  Proof.
    induction fuel as [|f IH]; intros w c I; [exact Logic.I|].
    assert (ST : forall w c, inv w -> safe2 w (run f w c)).
    { intros w0 c0 I0. specialize (IH w0 c0 I0). destruct (run f w0 c0) as [[w1 e1]| |]; cbn; try exact IH.
      exact (proj1 IH). }
    destruct c as [o|o| |v].
    - destruct (run_add f w o I) as (w' & R1 & R2 & R3). rewrite R1.
      split; [exact R2|]. exists []. cbn [app]. split; [exact R3|].
      split; [intros _; repeat constructor|]. tauto.
    - destruct (run_remove f w o I) as (w' & R1 & R2 & R3). rewrite R1.
      split; [exact R2|]. exists []. cbn [app]. split; [exact R3|].
      split; [intros _; repeat constructor|]. tauto.
    - cbn [ObserverModel.run].
      pose proof (loop_safe (run f) ST (call_disc self on_disc (run f)) (w_cnt w)
                    (fun i w0 I0 N0 L0 => disc_safe (run f) ST i (w_cnt w) w0 I0 N0 L0)
                    (w_cnt w) 0 w I (nz_cnt w I) ltac:(lia)) as L.
      destruct (loop (call_disc self on_disc (run f)) 0 (w_cnt w) w) as [w1| |]; cbn [bind] in *; try exact L.
      destruct L as [L1 L2 L3 (evs & L4 & L5)].
      destruct (inv_cleared w1 L1) as [C1 C2].
      assert (X : ext w (emit (W (w_slots w1) 0 (w_inside w1) (w_log w1)) (Ret Clear ok))).
      { split; [exact C1|exact L2|intros n Hn; apply C2, L3, Hn|].
        exists (evs ++ [Ret Clear ok]). cbn [emit w_log]. rewrite L4, app_assoc. split; [reflexivity|].
        intros H. apply Forall_app. split; [apply L5, H|repeat constructor]. }
      split; [exact X|]. exists evs. cbn [emit w_log]. rewrite L4, app_assoc. split; [reflexivity|].
      split; [|reflexivity]. intros H. apply Forall_app. split; [apply L5, H|repeat constructor].
    - cbn [ObserverModel.run].
      replace (max_observers Max <? w_cnt w)%nat with false by (pose proof (inv_le w I); lia).
      destruct (w_inside w) eqn:EI.
      + assert (X : ext w (emit w (Ret (Notify v) notify_recursion_detected))).
        { split; [|reflexivity|intros n Hn; exact Hn|].
          - replace w with (W (w_slots w) (w_cnt w) (w_inside w) (w_log w)) at 1 by (destruct w; reflexivity).
            apply inv_notify_ret. exact I.
          - eexists. split; [reflexivity|]. intros _. repeat constructor. }
        split; [exact X|]. exists []. cbn [app emit w_log]. split; [reflexivity|].
        split; [intros _; repeat constructor|]. rewrite EI. tauto.
      + pose proof (inv_flag w true I) as I'.
        pose proof (loop_xfer (run f) ST v (w_cnt w) (w_cnt w) 0 _ I' eq_refl (nz_cnt _ I') ltac:(lia)) as L.
        cbn [w_cnt] in L.
        destruct (loop (fun i : nat => call_data self on_data (run f) i v) 0 (w_cnt w)
                    (W (w_slots w) (w_cnt w) true (w_log w))) as [w1| |]; cbn [bind] in *; try exact L.
        destruct L as (L1 & L2 & L3 & evs & L4 & L5 & L6). cbn [w_inside w_log] in *.
        assert (X : ext w (emit (W (w_slots w1) (w_cnt w1) false (w_log w1)) (Ret (Notify v) ok))).
        { split.
          - apply inv_notify_ret. exact L1.
          - cbn. congruence.
          - intros n Hn. exact (L3 n Hn).
          - exists (evs ++ [Ret (Notify v) ok]). cbn [emit w_log]. rewrite L4, app_assoc.
            split; [reflexivity|]. congruence. }
        split; [exact X|]. exists evs. cbn [emit w_log]. rewrite L4, app_assoc. split; [reflexivity|].
        split; [congruence|]. rewrite EI. split; [reflexivity|]. split; [|exact L6].
        rewrite L5. apply (i_cnt w I).
  Qed.

  Lemma run_inv fuel w c w' e : inv w -> run fuel w c = Ok (w', e) -> call_post w c w' e.
  Proof. intros I E. pose proof (run_post fuel w c I) as P. rewrite E in P. exact P. Qed.

  Lemma run_all_inv fuel l : forall w w', inv w -> w_inside w = false ->
    run_all self Max on_data on_disc fuel w l = Ok w' -> inv w' /\ w_inside w' = false.
  Proof.
    induction l as [|c l IH]; intros w w' I F E; cbn [run_all] in E.
    - inversion E; subst. tauto.
    - destruct (run fuel w c) as [[w1 e]| |] eqn:E1; cbn [bind] in E; try discriminate.
      destruct (run_inv fuel w c w1 e I E1) as [[X1 X2 X3 X4] _].
      apply (IH w1 w'); [exact X1|congruence|exact E].
  Qed.

  Lemma reach_inv w : reaches self Max on_data on_disc w -> inv w /\ w_inside w = false.
  Proof.
    intros (fuel & l & E). eapply run_all_inv; [apply inv_fresh|reflexivity|exact E].
  Qed.
End Inv.
