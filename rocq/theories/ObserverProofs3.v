(** Termination, exact deliveries, and reading the log. *)
From Verif Require Export ObserverProofs2.

Section Read.
  Context {V : Type}.
  Variable self : addr.
  Variable Max : Z.
  Variable on_data : list (ev V) -> addr -> V -> body V.
  Variable on_disc : list (ev V) -> addr -> body V.
  Notation cap := (max_observers Max).
  Notation run := (run self Max on_data on_disc).
  Notation good := (@good V self Max).
  Notation inv := (@inv V self Max).

  (** ** reading [good] *)
  Lemma snoc_split {A} (l p : list A) (x y : A) q :
    l ++ [x] = p ++ y :: q -> (q = [] /\ l = p /\ x = y) \/ (exists q', q = q' ++ [x] /\ l = p ++ y :: q').
  Proof.
    intros E. destruct q as [|z q] using rev_ind.
    - left. apply app_inj_tail in E. tauto.
    - right. exists q. rewrite app_comm_cons, app_assoc in E. apply app_inj_tail in E.
      destruct E as [E1 E2]. subst z. tauto.
  Qed.

  Ltac good_ind H :=
    induction H as [|log o0 H IH|log o0 H IH|log H IH|log v0 e0 H IH|log o0 v0 H IH W0|log o0 H IH W0];
    intros; [match goal with E : [] = ?p ++ _ |- _ => destruct p; discriminate E end|..];
    match goal with E : _ = _ ++ _ |- _ =>
      apply snoc_split in E; destruct E as [(E1 & E2 & E3)|(q' & E1 & E2)];
      [try discriminate E3; inversion E3; subst; try reflexivity; try assumption|eapply IH; exact E2]
    end.

  Lemma good_add_answer (log : list (ev V)) : good log -> forall p o e q,
    log = p ++ Ret (Add o) e :: q -> e = add_answer cap (members p) o.
  Proof. intros H. good_ind H. Qed.

  Lemma good_remove_answer (log : list (ev V)) : good log -> forall p o e q,
    log = p ++ Ret (Remove o) e :: q -> e = remove_answer (members p) o.
  Proof. intros H. good_ind H. Qed.

  Lemma good_data_added (log : list (ev V)) : good log -> forall p src o v q,
    log = p ++ Data src o v :: q -> src = self /\ was_added p o.
  Proof. intros H. good_ind H; auto. Qed.

  Lemma good_disc_added (log : list (ev V)) : good log -> forall p src o q,
    log = p ++ Disc src o :: q -> src = self /\ was_added p o.
  Proof. intros H. good_ind H; auto. Qed.

  Lemma members_le w : inv w -> (length (members (w_log w)) <= cap)%nat.
  Proof. intros I. rewrite <- (i_cnt _ _ _ I). eapply inv_le. exact I. Qed.

  (** ** termination *)
  Definition done (x : res (world V * err)) : Prop := match x with Ok _ => True | _ => False end.
  Definition ends (x : res (world V)) : Prop := match x with Ok _ => True | _ => False end.

  (** Bodies whose calls all satisfy [P]. *)
  Inductive calls_in (P : call V -> Prop) : body V -> Prop :=
  | ci_ret : calls_in P Return
  | ci_do c k : P c -> (forall e, calls_in P (k e)) -> calls_in P (Do c k).

  Lemma all_calls b : calls_in (fun _ => True) b.
  Proof. induction b as [|c k IH]; constructor; auto. Qed.

  Lemma no_clear_calls b : no_clear b -> calls_in (fun c => c <> Clear) b.
  Proof. induction 1; constructor; auto. Qed.

  Definition st (i : bool) (w : world V) : Prop := inv w /\ w_inside w = i.

  Lemma run_st f i w c w' e : st i w -> run f w c = Ok (w', e) -> st i w' /\ forall n, nz w n -> nz w' n.
  Proof.
    intros [I J] E. destruct (run_inv self Max on_data on_disc f w c w' e I E) as [[X1 X2 X3 _] _].
    split; [split; [exact X1|congruence]|exact X3].
  Qed.

  Definition st_ends (i : bool) (w : world V) (x : res (world V)) : Prop :=
    exists w', x = Ok w' /\ st i w' /\ forall n, nz w n -> nz w' n.

  Lemma body_terminates f i (P : call V -> Prop) :
    (forall w c, st i w -> P c -> done (run f w c)) ->
    forall b, calls_in P b -> forall w, st i w -> st_ends i w (run_body (run f) b w).
  Proof.
    intros HT b HB. induction HB as [|c k HP HK IH]; intros w S; cbn [run_body].
    - exists w. tauto.
    - specialize (HT w c S HP). destruct (run f w c) as [[w' e]| |] eqn:E; try contradiction.
      cbn [bind]. destruct (run_st f i w c w' e S E) as [S' N'].
      destruct (IH e w' S') as (w2 & E2 & S2 & N2). exists w2.
      split; [exact E2|]. split; [exact S2|]. auto.
  Qed.

  Lemma loop_terminates i n (g : nat -> world V -> res (world V)) :
    (forall j w, st i w -> nz w n -> (j < n)%nat -> st_ends i w (g j w)) ->
    forall k j w, st i w -> nz w n -> (j + k <= n)%nat -> st_ends i w (loop g j k w).
  Proof.
    intros Hg. induction k as [|k IH]; intros j w S N L; cbn [loop].
    - exists w. tauto.
    - destruct (Hg j w S N ltac:(lia)) as (w' & E & S' & N'). rewrite E. cbn [bind].
      destruct (IH (Datatypes.S j) w' S' (N' n N) ltac:(lia)) as (w2 & E2 & S2 & N2).
      exists w2. split; [exact E2|]. split; [exact S2|]. auto.
  Qed.

  Lemma emit_st i w e o :
    st i w -> was_added (w_log w) o -> e = Disc self o \/ (exists v, e = Data self o v) ->
    st i (emit w e) /\ forall n, nz w n -> nz (emit w e) n.
  Proof.
    intros [I J] A HE. destruct (ext_entry self Max w e o I A HE) as [I' N'].
    split; [split; [exact I'|exact J]|exact N'].
  Qed.

  Lemma disc_terminates f i (P : call V -> Prop) :
    (forall w c, st i w -> P c -> done (run f w c)) ->
    (forall log o, calls_in P (on_disc log o)) ->
    forall n j w, st i w -> nz w n -> (j < n)%nat -> st_ends i w (call_disc self on_disc (run f) j w).
  Proof.
    intros HT HD n j w S N L.
    destruct (nz_slot self Max w n j (proj1 S) N L) as (o & S1 & S2).
    unfold call_disc. rewrite S1. cbn [bind].
    destruct (emit_st i w (Disc self o) o S S2 (or_introl eq_refl)) as [S3 N3].
    destruct (body_terminates f i P HT _ (HD (w_log w) o) _ S3) as (w2 & E2 & S4 & N4).
    exists w2. split; [exact E2|]. split; [exact S4|]. auto.
  Qed.

  Lemma data_terminates f i v :
    (forall w c, st i w -> done (run f w c)) ->
    forall n j w, st i w -> nz w n -> (j < n)%nat ->
    st_ends i w (call_data self on_data (run f) j v w).
  Proof.
    intros HT n j w S N L.
    destruct (nz_slot self Max w n j (proj1 S) N L) as (o & S1 & S2).
    unfold call_data. rewrite S1. cbn [bind].
    destruct (emit_st i w (Data self o v) o S S2 (or_intror (ex_intro _ v eq_refl))) as [S3 N3].
    destruct (body_terminates f i (fun _ => True) (fun w c H _ => HT w c H) _
                (all_calls (on_data (w_log w) o v)) _ S3) as (w2 & E2 & S4 & N4).
    exists w2. split; [exact E2|]. split; [exact S4|]. auto.
  Qed.

  Hypothesis disc_no_clear : forall log o, no_clear (on_disc log o).

  Lemma clear_done f i w :
    (forall w c, st i w -> c <> Clear -> done (run f w c)) -> st i w -> done (run (S f) w Clear).
  Proof.
    intros HT S. cbn [ObserverModel.run].
    destruct (loop_terminates i (w_cnt w) (call_disc self on_disc (run f))
                (disc_terminates f i _ HT (fun log o => no_clear_calls _ (disc_no_clear log o)) (w_cnt w))
                (w_cnt w) 0 w S (nz_cnt self Max w (proj1 S)) ltac:(lia)) as (w2 & E2 & _ & _).
    rewrite E2. exact Logic.I.
  Qed.

  Lemma simple_done f i w c : st i w -> (i = true \/ (forall v, c <> Notify v)) -> c <> Clear ->
    done (run (S f) w c).
  Proof.
    intros [I J] HC NC. destruct c as [o|o| |v].
    - destruct (run_add self Max on_data on_disc f w o I) as (w' & R & _). rewrite R. exact Logic.I.
    - destruct (run_remove self Max on_data on_disc f w o I) as (w' & R & _). rewrite R. exact Logic.I.
    - congruence.
    - destruct HC as [HC|HC]; [|specialize (HC v); congruence].
      subst i. cbn [ObserverModel.run]. rewrite HC.
      destruct (max_observers Max <? w_cnt w)%nat; exact Logic.I.
  Qed.

  Lemma inside_done f w c : st true w -> done (run (S (S f)) w c).
  Proof.
    intros S. destruct c as [o|o| |v]; try (apply (simple_done _ true); [exact S|tauto|discriminate]).
    apply clear_done with (i := true); [|exact S].
    intros w0 c0 S0 N0. apply (simple_done _ true); tauto.
  Qed.

  Lemma notify_done f w v : inv w -> done (run (S (S (S f))) w (Notify v)).
  Proof.
    intros I. destruct (w_inside w) eqn:J.
    { apply inside_done. split; assumption. }
    remember (S (S f)) as g eqn:Eg. cbn [ObserverModel.run]. rewrite J.
    replace (max_observers Max <? w_cnt w)%nat with false by (pose proof (inv_le self Max w I); lia).
    assert (S0 : st true (W (w_slots w) (w_cnt w) true (w_log w))).
    { split; [apply inv_flag; exact I|reflexivity]. }
    destruct (loop_terminates true (w_cnt w) (fun j => call_data self on_data (run g) j v)
                (data_terminates g true v (fun w c H => eq_ind_r (fun g => done (run g w c)) (inside_done f w c H) Eg) (w_cnt w))
                (w_cnt w) 0 _ S0 (nz_cnt self Max _ (proj1 S0)) ltac:(cbn; lia)) as (w2 & E2 & _ & _).
    rewrite E2. exact Logic.I.
  Qed.

  Lemma all_done f w c : inv w -> done (run (4 + f) w c).
  Proof.
    intros I. destruct (w_inside w) eqn:J.
    { apply inside_done. split; assumption. }
    destruct c as [o|o| |v].
    - apply (simple_done _ false); [split; assumption|right; discriminate|discriminate].
    - apply (simple_done _ false); [split; assumption|right; discriminate|discriminate].
    - apply (clear_done _ false); [|split; assumption].
      intros w0 c0 [I0 J0] N0. destruct c0 as [o|o| |v].
      + apply (simple_done _ false); [split; assumption|right; discriminate|discriminate].
      + apply (simple_done _ false); [split; assumption|right; discriminate|discriminate].
      + congruence.
      + apply notify_done. exact I0.
    - apply notify_done. exact I.
  Qed.
End Read.

(** ** exact deliveries when callbacks keep everybody registered *)
Section Exact.
  Context {V : Type}.
  Variable self : addr.
  Variable Max : Z.
  Variable on_data : list (ev V) -> addr -> V -> body V.
  Variable on_disc : list (ev V) -> addr -> body V.
  Notation cap := (max_observers Max).
  Notation run := (run self Max on_data on_disc).
  Notation inv := (@inv V self Max).

  (** The first slots hold [l]. *)
  Definition starts (l : list addr) (w : world V) : Prop :=
    inv w /\ w_inside w = true /\ exists m, members (w_log w) = l ++ m.

  Lemma starts_slot l w i o :
    starts l w -> nth_error l i = Some o -> slot (w_slots w) i = Ok (Some o).
  Proof.
    intros (I & _ & m & EM) E. destruct (i_repr _ _ _ I) as [t Ht]. unfold slot.
    rewrite Ht, EM, map_app, <- app_assoc.
    rewrite nth_error_app1 by (rewrite map_length; apply nth_error_Some; congruence).
    rewrite (map_nth_error Some i l E). reflexivity.
  Qed.

  Lemma keeps_run f l b : keeps b -> forall w, starts l w ->
    match run_body (run f) b w with
    | Ok w' => starts l w' /\ exists evs, w_log w' = w_log w ++ evs /\ deliveries evs = []
    | UB => False
    | Fuel => True
    end.
  Proof.
    induction 1 as [|o k HK IH|v k HK IH]; intros w S; cbn [run_body].
    - split; [exact S|]. exists []. rewrite app_nil_r. split; reflexivity.
    - destruct S as (I & J & m & EM).
      destruct f as [|f]; [exact Logic.I|].
      destruct (run_add self Max on_data on_disc f w o I) as (w' & R1 & R2 & R3).
      rewrite R1. cbn [bind].
      assert (S' : starts l w').
      { split; [apply R2|]. split; [rewrite (e_inside _ _ _ _ R2); exact J|].
        rewrite R3, members_snoc. cbn [member_step].
        destruct (add_answer cap (members (w_log w)) o); rewrite EM; try (exists m; reflexivity).
        exists (m ++ [o]). rewrite app_assoc. reflexivity. }
      specialize (IH (add_answer cap (members (w_log w)) o) w' S').
      destruct (run_body (run (S f)) (k (add_answer cap (members (w_log w)) o)) w') as [w2| |];
        try exact IH.
      destruct IH as (S2 & evs & E1 & E2). split; [exact S2|].
      eexists. rewrite E1, R3, <- app_assoc. split; [reflexivity|]. cbn. exact E2.
    - destruct S as (I & J & m & EM).
      destruct f as [|f]; [exact Logic.I|].
      pose proof (run_post self Max on_data on_disc (S f) w (Notify v) I) as P.
      destruct (run (S f) w (Notify v)) as [[w' e]| |]; try exact P.
      destruct P as (X & evs0 & P1 & P2 & P3). rewrite J in P3. destruct P3 as [-> ->]. cbn [app] in P1.
      cbn [bind].
      assert (S' : starts l w').
      { split; [apply X|]. split; [rewrite (e_inside _ _ _ _ X); exact J|].
        rewrite P1, members_snoc, EM. exists m. reflexivity. }
      specialize (IH notify_recursion_detected w' S').
      destruct (run_body (run (S f)) (k notify_recursion_detected) w') as [w2| |]; try exact IH.
      destruct IH as (S2 & evs & E1 & E2). split; [exact S2|].
      eexists. rewrite E1, P1, <- app_assoc. split; [reflexivity|]. cbn. exact E2.
  Qed.

  Hypothesis data_keeps : forall log o v, keeps (on_data log o v).

  Lemma keeps_loop f v l : forall k i w, starts l w -> (i + k = length l)%nat ->
    match loop (fun i => call_data self on_data (run f) i v) i k w with
    | Ok w' => starts l w' /\ exists evs, w_log w' = w_log w ++ evs /\
                 deliveries evs = map (fun o => Data self o v) (skipn i l)
    | UB => False
    | Fuel => True
    end.
  Proof.
    induction k as [|k IH]; intros i w S L; cbn [loop].
    - split; [exact S|]. exists []. rewrite app_nil_r. split; [reflexivity|].
      rewrite skipn_all2 by lia. reflexivity.
    - destruct (nth_error l i) as [o|] eqn:E; [|apply nth_error_None in E; lia].
      unfold call_data at 1. rewrite (starts_slot l w i o S E). cbn [bind].
      assert (A : was_added (w_log w) o).
      { destruct S as (I & _ & m & EM). apply (i_added _ _ _ I).
        destruct (i_repr _ _ _ I) as [t Ht]. rewrite Ht, EM, in_app_iff. left. apply in_map.
        rewrite in_app_iff. left. eapply nth_error_In. exact E. }
      assert (S1 : starts l (emit w (Data self o v))).
      { destruct S as (I & J & m & EM).
        destruct (ext_entry self Max w (Data self o v) o I A (or_intror (ex_intro _ v eq_refl))) as [I' _].
        split; [exact I'|]. split; [exact J|]. exists m. cbn [emit w_log]. rewrite members_snoc. exact EM. }
      pose proof (keeps_run f l _ (data_keeps (w_log w) o v) _ S1) as B.
      destruct (run_body (run f) (on_data (w_log w) o v) (emit w (Data self o v))) as [w1| |];
        cbn [bind]; try exact B.
      destruct B as (S2 & e1 & B1 & B2).
      specialize (IH (Datatypes.S i) w1 S2 ltac:(lia)).
      destruct (loop (fun i0 : nat => call_data self on_data (run f) i0 v) (Datatypes.S i) k w1) as [w2| |];
        try exact IH.
      destruct IH as (S3 & e2 & C1 & C2). split; [exact S3|].
      exists (Data self o v :: e1 ++ e2). split.
      + rewrite C1, B1. cbn [emit w_log]. rewrite <- !app_assoc. reflexivity.
      + unfold deliveries in *. cbn [filter is_data]. rewrite filter_app, B2. cbn [app]. rewrite C2.
        destruct (nth_error_split l i E) as (l1 & l2 & EL & ELN). subst l i.
        rewrite !skipn_app, Nat.sub_diag.
        replace (Datatypes.S (length l1) - length l1)%nat with 1%nat by lia.
        rewrite !(skipn_all2 l1) by lia. reflexivity.
  Qed.

  Lemma keeps_notify_exact f w v w' e :
    inv w -> w_inside w = false -> run f w (Notify v) = Ok (w', e) ->
    e = ok /\ exists evs, w_log w' = w_log w ++ evs ++ [Ret (Notify v) ok] /\
      deliveries evs = map (fun o => Data self o v) (members (w_log w)).
  Proof.
    intros I J E. destruct f as [|f]; [discriminate|].
    cbn [ObserverModel.run] in E. rewrite J in E.
    replace (max_observers Max <? w_cnt w)%nat with false in E by (pose proof (inv_le self Max w I); lia).
    assert (S0 : starts (members (w_log w)) (W (w_slots w) (w_cnt w) true (w_log w))).
    { split; [apply inv_flag; exact I|]. split; [reflexivity|]. exists []. rewrite app_nil_r. reflexivity. }
    pose proof (keeps_loop f v _ (w_cnt w) 0 _ S0) as L.
    cbn [w_cnt] in L. specialize (L (i_cnt _ _ _ I)).
    destruct (loop (fun i : nat => call_data self on_data (run f) i v) 0 (w_cnt w)
                (W (w_slots w) (w_cnt w) true (w_log w))) as [w1| |]; cbn [bind] in E; try discriminate.
    destruct L as (S1 & evs & L1 & L2). inversion E; subst w' e. split; [reflexivity|].
    exists evs. cbn [emit w_log]. rewrite L1. cbn [w_log]. rewrite app_assoc. split; [reflexivity|].
    exact L2.
  Qed.
End Exact.

(** ** callbacks that do nothing with the observable *)
Section Quiet.
  Context {V : Type}.
  Variable self : addr.
  Variable Max : Z.
  Variable on_data : list (ev V) -> addr -> V -> body V.
  Variable on_disc : list (ev V) -> addr -> body V.
  Notation run := (run self Max on_data on_disc).
  Notation inv := (@inv V self Max).

  Lemma quiet_data_loop step v l : (forall log o v, on_data log o v = Return) ->
    forall p t w, w_slots w = map Some (p ++ l) ++ t ->
    loop (fun i => call_data self on_data step i v) (length p) (length l) w
    = Ok (W (w_slots w) (w_cnt w) (w_inside w) (w_log w ++ map (fun o => Data self o v) l)).
  Proof.
    intros Q. induction l as [|o l IH]; intros p t w Hs; cbn [length loop].
    - cbn. rewrite app_nil_r. destruct w; reflexivity.
    - unfold call_data at 1. rewrite Hs.
      replace (map Some (p ++ o :: l) ++ t) with (map Some p ++ Some o :: map Some l ++ t)
        by (rewrite map_app, <- app_assoc; reflexivity).
      rewrite <- (map_length (@Some positive) p) at 1. rewrite slot_app. cbn [bind]. rewrite Q. cbn [run_body bind].
      assert (H := IH (p ++ [o]) t (emit w (Data self o v))).
      rewrite app_length in H. cbn [length] in H. replace (length p + 1)%nat with (S (length p)) in H by lia.
      rewrite H by (cbn [emit w_slots]; rewrite Hs, <- app_assoc; reflexivity).
      cbn [emit w_slots w_cnt w_inside w_log map]. rewrite <- app_assoc, Hs, map_app, <- app_assoc. reflexivity.
  Qed.

  Lemma quiet_disc_loop step l : (forall log o, on_disc log o = Return) ->
    forall p t w, w_slots w = map Some (p ++ l) ++ t ->
    loop (call_disc self on_disc step) (length p) (length l) w
    = Ok (W (w_slots w) (w_cnt w) (w_inside w) (w_log w ++ map (Disc self) l)).
  Proof.
    intros Q. induction l as [|o l IH]; intros p t w Hs; cbn [length loop].
    - cbn. rewrite app_nil_r. destruct w; reflexivity.
    - unfold call_disc at 1. rewrite Hs.
      replace (map Some (p ++ o :: l) ++ t) with (map Some p ++ Some o :: map Some l ++ t)
        by (rewrite map_app, <- app_assoc; reflexivity).
      rewrite <- (map_length (@Some positive) p) at 1. rewrite slot_app. cbn [bind]. rewrite Q. cbn [run_body bind].
      assert (H := IH (p ++ [o]) t (emit w (Disc self o))).
      rewrite app_length in H. cbn [length] in H. replace (length p + 1)%nat with (S (length p)) in H by lia.
      rewrite H by (cbn [emit w_slots]; rewrite Hs, <- app_assoc; reflexivity).
      cbn [emit w_slots w_cnt w_inside w_log map]. rewrite <- app_assoc, Hs, map_app, <- app_assoc. reflexivity.
  Qed.

  Lemma quiet_notify f w v : (forall log o v, on_data log o v = Return) ->
    inv w -> w_inside w = false ->
    exists w', run (S f) w (Notify v) = Ok (w', ok) /\
      w_log w' = w_log w ++ map (fun o => Data self o v) (members (w_log w)) ++ [Ret (Notify v) ok].
  Proof.
    intros Q I J. cbn [ObserverModel.run]. rewrite J.
    replace (max_observers Max <? w_cnt w)%nat with false by (pose proof (inv_le self Max w I); lia).
    destruct (i_repr _ _ _ I) as [t Ht]. rewrite (i_cnt _ _ _ I).
    pose proof (quiet_data_loop (run f) v (members (w_log w)) Q [] t
                (W (w_slots w) (length (members (w_log w))) true (w_log w)) Ht) as H.
    cbn [length] in H. rewrite H. cbn [bind]. eexists. split; [reflexivity|].
    cbn [emit w_log]. rewrite app_assoc. reflexivity.
  Qed.

  Lemma quiet_clear f w : (forall log o, on_disc log o = Return) -> inv w ->
    exists w', run (S f) w Clear = Ok (w', ok) /\
      w_log w' = w_log w ++ map (Disc self) (members (w_log w)) ++ [Ret Clear ok].
  Proof.
    intros Q I. cbn [ObserverModel.run].
    destruct (i_repr _ _ _ I) as [t Ht]. rewrite (i_cnt _ _ _ I).
    pose proof (quiet_disc_loop (run f) (members (w_log w)) Q [] t w Ht) as H.
    cbn [length] in H. rewrite H. cbn [bind]. eexists. split; [reflexivity|].
    cbn [emit w_log]. rewrite app_assoc. reflexivity.
  Qed.
End Quiet.
