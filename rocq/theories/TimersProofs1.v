(** Several timers: moves, what holds in every network. *)
From Verif Require Export TimersSpec.

Lemma tid_eqb_spec a b : reflect (a = b) (tid_eqb a b).
Proof.
  destruct a as [m|m], b as [n|n]; cbn; try (constructor; discriminate); destruct (Nat.eqb_spec m n) as [->|N]; constructor; congruence.
Qed.
Lemma tid_eqb_refl a : tid_eqb a a = true.
Proof. destruct (tid_eqb_spec a a); congruence. Qed.
Lemma act_same w t a : t_act (put_act w t a) t = a.
Proof. cbn. rewrite tid_eqb_refl. reflexivity. Qed.
Lemma act_other w t a b : b <> t -> t_act (put_act w t a) b = t_act w b.
Proof. intros H. cbn. destruct (tid_eqb_spec b t); congruence. Qed.
Lemma todo_same w t a : t_todo (put_todo w t a) t = a.
Proof. cbn. rewrite tid_eqb_refl. reflexivity. Qed.
Lemma todo_other w t a b : b <> t -> t_todo (put_todo w t a) b = t_todo w b.
Proof. intros H. cbn. destruct (tid_eqb_spec b t); congruence. Qed.
Lemma timer_same w m a : t_timer (put_timer w m a) m = a.
Proof. cbn. rewrite Nat.eqb_refl. reflexivity. Qed.
Lemma timer_other w m a n : n <> m -> t_timer (put_timer w m a) n = t_timer w n.
Proof. intros H. cbn. destruct (Nat.eqb_spec n m); congruence. Qed.

Definition out (x : timer) : Prop := t_pc x = TNotify \/ t_pc x = TDone.
Lemma not_out x : t_pc x <> TNotify -> t_pc x <> TDone -> ~ out x.
Proof. intros A B [C|C]; congruence. Qed.

Section Timers.
  Variables N M : nat.
  Variable func : list tev -> nat -> list nat.
  Notation tids := (tids N M).
  Notation tstep := (tstep N M func).
  Notation trun := (trun N M func).
  Definition flagged (x : timer) (b : bool) := Tm b (t_stop x) (t_pc x).
  Definition at_pc (x : timer) (pc : tpc) := Tm (t_flag x) (t_stop x) pc.
  Definition stopped (x : timer) := Tm (t_flag x) true (t_pc x).

  (** Thread [t] may run its part of stop(). *)
  Definition can (w : tworld) (t : tid) : Prop :=
    match t with Worker m => (m < N)%nat /\ t_pc (t_timer w m) = TCall | Outside k => (k < M)%nat end.
  Definition resting (w : tworld) (t : tid) : Prop :=
    match t with
    | Worker m => (N <= m)%nat \/ t_pc (t_timer w m) = TDone \/
                  (t_pc (t_timer w m) = TCall /\ exists x, t_act w t = ABlocked x)
    | Outside k => (M <= k)%nat \/ (exists x, t_act w t = ABlocked x) \/ (t_act w t = AIdle /\ t_todo w t = [])
    end.
  Inductive tmove (w : tworld) : option tid -> tworld -> Prop :=
  | tm_none mv : match mv with Some t => resting w t | None => True end -> tmove w mv w
  | tm_skip t x rest : can w t -> t_act w t = AIdle -> t_todo w t = x :: rest -> t_stop (t_timer w x) = true ->
      tmove w (Some t) (tnote (put_todo w t rest) (EReturn t x))
  | tm_begin t x rest : can w t -> t_act w t = AIdle -> t_todo w t = x :: rest -> t_stop (t_timer w x) = false ->
      tmove w (Some t) (put_act (put_todo w t rest) t (AClear x))
  | tm_clear t x : can w t -> t_act w t = AClear x ->
      tmove w (Some t) (put_act (put_timer w x (flagged (t_timer w x) false)) t (AWait x))
  | tm_see t x : can w t -> t_act w t = AWait x -> t_flag (t_timer w x) = true -> tmove w (Some t) (put_act w t (AFin x))
  | tm_block t x : can w t -> t_act w t = AWait x -> t_flag (t_timer w x) = false -> tmove w (Some t) (put_act w t (ABlocked x))
  | tm_fin t x : can w t -> t_act w t = AFin x ->
      tmove w (Some t) (tnote (put_act (put_timer w x (stopped (t_timer w x))) t AIdle) (EReturn t x))
  | tm_pc m pc : (m < N)%nat ->
      (t_pc (t_timer w m) = TStart /\ pc = TTest) \/ (t_pc (t_timer w m) = TPause /\ pc = TTest) \/ (t_pc (t_timer w m) = TCheck /\ pc = TPause) ->
      tmove w (Some (Worker m)) (put_timer w m (at_pc (t_timer w m) pc))
  | tm_on m : (m < N)%nat -> t_pc (t_timer w m) = TTest -> t_flag (t_timer w m) = true ->
      tmove w (Some (Worker m)) (put_timer w m (Tm true (t_stop (t_timer w m)) TCheck))
  | tm_off m : (m < N)%nat -> t_pc (t_timer w m) = TTest -> t_flag (t_timer w m) = false ->
      tmove w (Some (Worker m)) (put_timer w m (Tm true (t_stop (t_timer w m)) TNotify))
  | tm_call m : (m < N)%nat -> t_pc (t_timer w m) = TCheck ->
      tmove w (Some (Worker m)) (tnote (put_todo (put_timer w m (at_pc (t_timer w m) TCall)) (Worker m) (func (t_log w) m)) (ECall m))
  | tm_end m : (m < N)%nat -> t_pc (t_timer w m) = TCall -> t_act w (Worker m) = AIdle -> t_todo w (Worker m) = [] ->
      tmove w (Some (Worker m)) (tnote (put_timer w m (at_pc (t_timer w m) TPause)) (EEnd m))
  | tm_quiet m : (m < N)%nat -> t_pc (t_timer w m) = TNotify -> (forall t, In t tids -> t_act w t <> ABlocked m) ->
      tmove w (Some (Worker m)) (put_timer w m (at_pc (t_timer w m) TDone))
  | tm_wake m t : (m < N)%nat -> t_pc (t_timer w m) = TNotify -> t_act w t = ABlocked m ->
      tmove w (Some (Worker m)) (put_timer (put_act w t (AWait m)) m (at_pc (t_timer w m) TDone))
  | tm_spurious t x : t_act w t = ABlocked x -> tmove w None (put_act w t (AWait x)).

  Definition mover (a : tagent) : option tid :=
    match a with TWork m _ _ => Some (Worker m) | TOut k => Some (Outside k) | TSpurious _ => None end.
  Lemma thread_moves w t : can w t -> ~ (t_act w t = AIdle /\ t_todo w t = []) ->
    tmove w (Some t) (thread_step w t).
  Proof.
    intros C NI. unfold thread_step. destruct (t_act w t) as [|x|x|x|x] eqn:EA.
    - destruct (t_todo w t) as [|x rest] eqn:ET; [exfalso; apply NI; auto|]. cbv zeta.
      destruct (t_stop (t_timer w x)) eqn:ES; [apply tm_skip|apply tm_begin]; assumption.
    - apply tm_clear; assumption.
    - destruct (t_flag (t_timer w x)) eqn:EF; [apply tm_see|apply tm_block]; assumption.
    - constructor. destruct t as [m|k]; cbn in *; [right; right; split; [apply C|exists x; exact EA]|right; left; exists x; exact EA].
    - apply tm_fin; assumption.
  Qed.
  Lemma tstep_moves w a : tmove w (mover a) (tstep w a).
  Proof.
    destruct a as [m fire who|k|t]; cbn [TimersModel.tstep mover].
    - destruct (Nat.ltb_spec m N) as [L|L]; [|constructor; left; exact L].
      unfold worker_step. destruct (t_pc (t_timer w m)) eqn:EP.
      + apply (tm_pc w m TTest L). auto.
      + destruct (t_flag (t_timer w m)) eqn:EF; [apply tm_on|apply tm_off]; assumption.
      + destruct fire; [apply (tm_call w m L EP)|apply (tm_pc w m TPause L); auto].
      + assert (C : can w (Worker m)) by (split; assumption).
        destruct (t_act w (Worker m)) as [|x|x|x|x] eqn:EA; [destruct (t_todo w (Worker m)) eqn:ET; [apply (tm_end w m L EP EA ET)|]|..];
          apply thread_moves; try exact C; intros [E1 E2]; congruence.
      + apply (tm_pc w m TTest L). auto.
      + unfold twake. destruct (blocked_on w m who) eqn:EB.
        * unfold blocked_on in EB. destruct (t_act w who) eqn:EA; try discriminate. apply Nat.eqb_eq in EB. subst x.
          exact (tm_wake w m who L EP EA).
        * destruct (filter (blocked_on w m) tids) as [|t l] eqn:EF.
          -- apply (tm_quiet w m L EP). intros t H E. assert (H2 : In t (filter (blocked_on w m) tids)).
             { apply filter_In. split; [exact H|]. unfold blocked_on. rewrite E. apply Nat.eqb_refl. }
             rewrite EF in H2. destruct H2.
          -- assert (H2 : In t (filter (blocked_on w m) tids)) by (rewrite EF; left; reflexivity). apply filter_In in H2. destruct H2 as [_ H2].
             unfold blocked_on in H2. destruct (t_act w t) eqn:EA; try discriminate. apply Nat.eqb_eq in H2. subst x.
             exact (tm_wake w m t L EP EA).
      + constructor. right. left. exact EP.
    - destruct (Nat.ltb_spec k M) as [L|L]; [|constructor; left; exact L].
      destruct (t_act w (Outside k)) eqn:EA; [destruct (t_todo w (Outside k)) eqn:ET|..];
        try (apply thread_moves; [exact L|intros [E1 E2]; congruence]).
      unfold thread_step. rewrite EA, ET. constructor. right. right. auto.
    - destruct (t_act w t) eqn:EA; try (constructor; exact Logic.I). apply tm_spurious. exact EA.
  Qed.

  (** ** in every network *)
  Record ginv (w : tworld) : Prop := {
    g_fin : forall t x, t_act w t = AFin x -> out (t_timer w x);
    g_stop : forall x, t_stop (t_timer w x) = true -> out (t_timer w x);
    g_wait : forall t x, (t_act w t = AWait x \/ t_act w t = ABlocked x) -> t_flag (t_timer w x) = false \/ out (t_timer w x);
    g_log : forall t x, In (EReturn t x) (t_log w) -> out (t_timer w x)
  }.
  Ltac act_cases t0 t := destruct (tid_eqb_spec t0 t) as [?E|?NE].
  Lemma ginv_start progs : ginv (tstart progs).
  Proof. split; cbn; try discriminate; try (intros t x H; destruct H; discriminate); try contradiction. Qed.
  Lemma out_mono w w' mv : tmove w mv w' -> forall x, out (t_timer w x) -> out (t_timer w' x).
  Proof.
    intros Mv x O. destruct Mv; cbn [tnote put_todo put_act t_timer]; try exact O;
      match goal with |- context [put_timer _ ?m _] => destruct (Nat.eq_dec x m) as [->|NE];
        [|cbn [put_act t_timer]; rewrite ?timer_other by exact NE; try exact O] | _ => idtac end;
      try (cbn [put_timer put_act t_timer]; rewrite Nat.eqb_refl; unfold out, flagged, stopped, at_pc; cbn [t_pc]; exact O).
    all: try (destruct O as [O|O]; try congruence).
    all: try (destruct H0 as [[H0 _]|[[H0 _]|[H0 _]]]; congruence).
    all: try (cbn [put_timer put_act t_timer]; rewrite Nat.eqb_refl; unfold out, at_pc; cbn [t_pc]; auto).
    all: cbn [put_timer put_act t_timer]; destruct (Nat.eqb_spec x m); [congruence|unfold out; auto].
  Qed.

  Ltac unput := cbn [tnote put_todo put_act put_timer t_timer t_act t_todo t_log flagged at_pc stopped t_flag t_stop t_pc] in *.
  Ltac split_eqb :=
    repeat match goal with
    | H : context [tid_eqb ?a ?b] |- _ => destruct (tid_eqb_spec a b); [subst|]
    | |- context [tid_eqb ?a ?b] => destruct (tid_eqb_spec a b); [subst|]
    | H : context [(?a =? ?b)%nat] |- _ => destruct (Nat.eqb_spec a b); [subst|]
    | |- context [(?a =? ?b)%nat] => destruct (Nat.eqb_spec a b); [subst|]
    end; unput.
  Lemma flag_move w mv w' x : tmove w mv w' -> t_flag (t_timer w x) = false -> t_flag (t_timer w' x) = false \/ out (t_timer w' x).
  Proof. intros Mv H. destruct Mv; unput; split_eqb; auto; try (left; congruence); right; unfold out; cbn; auto. Qed.
  Lemma wait_move w mv w' t x : tmove w mv w' -> (t_act w' t = AWait x \/ t_act w' t = ABlocked x) ->
    (t_act w t = AWait x \/ t_act w t = ABlocked x) \/ (t_act w t = AClear x /\ t_flag (t_timer w' x) = false).
  Proof.
    intros Mv H. destruct Mv; unput; split_eqb; auto; destruct H as [H|H]; try discriminate H; try (injection H as <-); auto;
      right; (split; [assumption|]); first [reflexivity|congruence|rewrite Nat.eqb_refl; reflexivity].
  Qed.
  Lemma fin_move w mv w' t x : tmove w mv w' -> t_act w' t = AFin x ->
    t_act w t = AFin x \/ (t_act w t = AWait x /\ t_flag (t_timer w x) = true).
  Proof. intros Mv H. destruct Mv; unput; split_eqb; auto; try discriminate H. injection H as <-. auto. Qed.
  Lemma stop_move w mv w' x : tmove w mv w' -> t_stop (t_timer w' x) = true ->
    t_stop (t_timer w x) = true \/ exists t, mv = Some t /\ t_act w t = AFin x.
  Proof. intros Mv H. destruct Mv; unput; split_eqb; eauto. Qed.
  Lemma log_move w mv w' : tmove w mv w' -> t_log w' = t_log w \/
    exists e, t_log w' = t_log w ++ [e] /\
      match e with
      | ECall m => mv = Some (Worker m) /\ t_pc (t_timer w m) = TCheck
      | EEnd m => mv = Some (Worker m) /\ t_pc (t_timer w m) = TCall /\ t_act w (Worker m) = AIdle /\ t_todo w (Worker m) = []
      | EReturn t x => mv = Some t /\ can w t /\
          ((t_stop (t_timer w x) = true /\ t_act w t = AIdle) \/ t_act w t = AFin x)
      end.
  Proof. intros Mv. destruct Mv; unput; auto; right; eexists; (split; [reflexivity|]); cbn; auto. Qed.
  Lemma ginv_move w mv w' : ginv w -> tmove w mv w' -> ginv w'.
  Proof.
    intros G Mv. pose proof (out_mono w w' mv Mv) as OM. split.
    - intros t x H. apply (fin_move _ _ _ _ _ Mv) in H. apply OM. destruct H as [H|[H1 H2]]; [eapply (g_fin w G); exact H|].
      destruct (g_wait w G t x (or_introl H1)) as [H|H]; [congruence|exact H].
    - intros x H. apply (stop_move _ _ _ _ Mv) in H. apply OM. destruct H as [H|(t & _ & H)]; [apply (g_stop w G), H|apply (g_fin w G t), H].
    - intros t x H. apply (wait_move _ _ _ _ _ Mv) in H. destruct H as [H|[_ H]]; [|left; exact H].
      destruct (g_wait w G t x H) as [E|E]; [eapply flag_move; eassumption|right; apply OM, E].
    - intros t x H. apply OM. destruct (log_move _ _ _ Mv) as [E|(e & E & HE)]; rewrite E in H; [eapply (g_log w G); exact H|].
      apply in_app_or in H. destruct H as [H|[->|[]]]; [eapply (g_log w G); exact H|].
      destruct HE as (_ & _ & [[H _]|H]); [apply (g_stop w G), H|apply (g_fin w G t), H].
  Qed.
  Lemma trun_snoc w s a : trun w (s ++ [a]) = tstep (trun w s) a.
  Proof. unfold TimersModel.trun. rewrite fold_left_app. reflexivity. Qed.
  Lemma trun_app w s1 s2 : trun w (s1 ++ s2) = trun (trun w s1) s2.
  Proof. unfold TimersModel.trun. apply fold_left_app. Qed.
  Lemma ginv_run s : forall w, ginv w -> ginv (trun w s).
  Proof. induction s as [|a s IH]; intros w G; [exact G|]. cbn. apply IH. eapply ginv_move; [exact G|apply tstep_moves]. Qed.
  Lemma log_run s : forall w, exists new, t_log (trun w s) = t_log w ++ new.
  Proof.
    induction s as [|a s IH]; intros w; [exists []; cbn; rewrite app_nil_r; reflexivity|]. cbn. destruct (IH (tstep w a)) as (new & E).
    fold (trun (tstep w a) s). rewrite E. destruct (log_move _ _ _ (tstep_moves w a)) as [E2|(e & E2 & _)]; rewrite E2; [exists new; reflexivity|].
    exists (e :: new). rewrite <- app_assoc. reflexivity.
  Qed.
  (** No call after stop() has returned. *)
  Definition quiet_log (log : list tev) : Prop := forall l1 m l2 t, log = l1 ++ ECall m :: l2 -> ~ In (EReturn t m) l1.
  Lemma quiet_run s : forall w, ginv w -> quiet_log (t_log w) -> quiet_log (t_log (trun w s)).
  Proof.
    induction s as [|a s IH]; intros w G Q; [exact Q|]. cbn. fold (trun (tstep w a) s).
    pose proof (tstep_moves w a) as Mv. apply IH; [eapply ginv_move; eassumption|].
    destruct (log_move _ _ _ Mv) as [E|(e & E & HE)]; rewrite E; [exact Q|].
    intros l1 m l2 t EL HI. destruct (exists_last (l := ECall m :: l2)) as (l3 & y & E3); [discriminate|].
    rewrite E3, app_assoc in EL. apply app_inj_tail in EL. destruct EL as [EL ->]. destruct l3 as [|z l3].
    - cbn [app] in E3. injection E3 as <- _. rewrite app_nil_r in EL. subst l1. destruct HE as [_ HE].
      destruct (g_log w G t m HI); congruence.
    - cbn [app] in E3. injection E3 as <- ->. eapply Q; eassumption.
  Qed.
End Timers.
