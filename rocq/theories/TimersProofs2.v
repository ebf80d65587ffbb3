(** Several timers: what holds when every timer has one owner and ranks fall. *)
From Verif Require Export TimersProofs1.

Ltac unput := cbn [tnote put_todo put_act put_timer t_timer t_act t_todo t_log flagged at_pc stopped t_flag t_stop t_pc] in *.
Ltac split_eqb :=
  repeat match goal with
  | H : context [tid_eqb ?a ?b] |- _ => destruct (tid_eqb_spec a b); [subst|]
  | |- context [tid_eqb ?a ?b] => destruct (tid_eqb_spec a b); [subst|]
  | H : context [(?a =? ?b)%nat] |- _ => destruct (Nat.eqb_spec a b); [subst|]
  | |- context [(?a =? ?b)%nat] => destruct (Nat.eqb_spec a b); [subst|]
  end; unput.

Section Timers.
  Variables N M : nat.
  Variable func : list tev -> nat -> list nat.
  Variable progs : nat -> list nat.
  Variable owner : nat -> tid.
  Variable rank : nat -> nat.
  Variable K : nat.
  Notation tids := (tids N M).
  Notation tstep := (tstep N M func).
  Notation trun := (trun N M func).
  Notation tmove := (tmove N M func).
  Notation can := (can N M).

  (** ** what one move does to one thread and to one timer *)
  Inductive act_eff (w : tworld) (mv : option tid) (w' : tworld) (t : tid) : Prop :=
  | ae_same : t_act w' t = t_act w t -> act_eff w mv w' t
  | ae_begin x rest : mv = Some t -> can w t -> t_act w t = AIdle -> t_todo w t = x :: rest -> t_todo w' t = rest -> t_stop (t_timer w x) = false ->
      t_act w' t = AClear x -> act_eff w mv w' t
  | ae_clear x : mv = Some t -> t_act w t = AClear x -> t_act w' t = AWait x -> t_flag (t_timer w' x) = false -> act_eff w mv w' t
  | ae_see x : mv = Some t -> t_act w t = AWait x -> t_flag (t_timer w x) = true -> t_act w' t = AFin x -> act_eff w mv w' t
  | ae_block x : mv = Some t -> t_act w t = AWait x -> t_flag (t_timer w x) = false -> t_act w' t = ABlocked x -> act_eff w mv w' t
  | ae_fin x : mv = Some t -> t_act w t = AFin x -> t_stop (t_timer w' x) = true -> t_act w' t = AIdle -> act_eff w mv w' t
  | ae_woken x : t_act w t = ABlocked x -> t_act w' t = AWait x -> act_eff w mv w' t.
  Lemma act_move w mv w' t : tmove w mv w' -> act_eff w mv w' t.
  Proof.
    intros Mv. destruct Mv; try (apply ae_same; reflexivity).
    - destruct (tid_eqb_spec t t0) as [->|NE]; [|apply ae_same; unput; destruct (tid_eqb_spec t t0); congruence].
      eapply ae_begin; try eassumption; try reflexivity; unput; rewrite tid_eqb_refl; reflexivity.
    - destruct (tid_eqb_spec t t0) as [->|NE]; [|apply ae_same; unput; destruct (tid_eqb_spec t t0); congruence].
      eapply ae_clear; try eassumption; try reflexivity; unput; rewrite ?tid_eqb_refl, ?Nat.eqb_refl; reflexivity.
    - destruct (tid_eqb_spec t t0) as [->|NE]; [|apply ae_same; unput; destruct (tid_eqb_spec t t0); congruence].
      eapply ae_see; try eassumption; try reflexivity; unput; rewrite ?tid_eqb_refl; reflexivity.
    - destruct (tid_eqb_spec t t0) as [->|NE]; [|apply ae_same; unput; destruct (tid_eqb_spec t t0); congruence].
      eapply ae_block; try eassumption; try reflexivity; unput; rewrite ?tid_eqb_refl; reflexivity.
    - destruct (tid_eqb_spec t t0) as [->|NE]; [|apply ae_same; unput; destruct (tid_eqb_spec t t0); congruence].
      eapply ae_fin; try eassumption; try reflexivity; unput; rewrite ?tid_eqb_refl, ?Nat.eqb_refl; reflexivity.
    - destruct (tid_eqb_spec t t0) as [->|NE].
      + eapply ae_woken; [eassumption|]. unput. rewrite tid_eqb_refl. reflexivity.
      + apply ae_same. unput. destruct (tid_eqb_spec t t0); congruence.
    - destruct (tid_eqb_spec t t0) as [->|NE].
      + eapply ae_woken; [eassumption|]. unput. rewrite tid_eqb_refl. reflexivity.
      + apply ae_same. apply act_other, NE.
  Qed.
  Definition pc_next (a b : tpc) : Prop :=
    (a = TStart /\ b = TTest) \/ (a = TPause /\ b = TTest) \/ (a = TCheck /\ (b = TPause \/ b = TCall)).
  Inductive timer_eff (w : tworld) (mv : option tid) (w' : tworld) (x : nat) : Prop :=
  | te_same : t_timer w' x = t_timer w x -> timer_eff w mv w' x
  | te_clear t : mv = Some t -> t_act w t = AClear x -> t_act w' t = AWait x -> t_timer w' x = flagged (t_timer w x) false -> timer_eff w mv w' x
  | te_fin t : mv = Some t -> t_act w t = AFin x -> t_timer w' x = stopped (t_timer w x) -> timer_eff w mv w' x
  | te_on : mv = Some (Worker x) -> t_pc (t_timer w x) = TTest -> t_flag (t_timer w x) = true ->
      t_timer w' x = Tm true (t_stop (t_timer w x)) TCheck -> timer_eff w mv w' x
  | te_off : mv = Some (Worker x) -> t_pc (t_timer w x) = TTest -> t_flag (t_timer w x) = false ->
      t_timer w' x = Tm true (t_stop (t_timer w x)) TNotify -> timer_eff w mv w' x
  | te_inside pc : mv = Some (Worker x) -> t_timer w' x = at_pc (t_timer w x) pc -> ~ out (t_timer w x) -> pc <> TNotify -> pc <> TDone ->
      t_pc (t_timer w x) <> TCall -> pc_next (t_pc (t_timer w x)) pc -> timer_eff w mv w' x
  | te_end : mv = Some (Worker x) -> t_timer w' x = at_pc (t_timer w x) TPause -> t_pc (t_timer w x) = TCall ->
      t_act w' (Worker x) = AIdle -> t_todo w' (Worker x) = [] -> timer_eff w mv w' x
  | te_done : mv = Some (Worker x) -> t_timer w' x = at_pc (t_timer w x) TDone -> t_pc (t_timer w x) = TNotify ->
      ((forall t, In t tids -> t_act w t <> ABlocked x) \/ exists t, t_act w t = ABlocked x /\ t_act w' t = AWait x) -> timer_eff w mv w' x.
  Lemma timer_move w mv w' x : tmove w mv w' -> timer_eff w mv w' x.
  Proof.
    intros Mv. destruct Mv; try (apply te_same; reflexivity).
    - destruct (Nat.eq_dec x x0) as [->|NE]; [|apply te_same; apply timer_other; exact NE].
      eapply te_clear; try eassumption; try reflexivity; unput; rewrite ?tid_eqb_refl, ?Nat.eqb_refl; reflexivity.
    - destruct (Nat.eq_dec x x0) as [->|NE]; [|apply te_same; apply timer_other; exact NE].
      eapply te_fin; try eassumption; try reflexivity; unput; rewrite ?tid_eqb_refl, ?Nat.eqb_refl; reflexivity.
    - destruct (Nat.eq_dec x m) as [->|NE]; [|apply te_same; apply timer_other; exact NE].
      eapply (te_inside _ _ _ _ pc); [reflexivity|apply timer_same|..].
      + intros [O|O]; destruct H0 as [[H0 _]|[[H0 _]|[H0 _]]]; congruence.
      + destruct H0 as [[_ ->]|[[_ ->]|[_ ->]]]; discriminate.
      + destruct H0 as [[_ ->]|[[_ ->]|[_ ->]]]; discriminate.
      + destruct H0 as [[H0 _]|[[H0 _]|[H0 _]]]; congruence.
      + unfold pc_next. destruct H0 as [H0|[H0|[H0 H1]]]; auto.
    - destruct (Nat.eq_dec x m) as [->|NE]; [|apply te_same; apply timer_other; exact NE].
      apply te_on; try assumption; try reflexivity. apply timer_same.
    - destruct (Nat.eq_dec x m) as [->|NE]; [|apply te_same; apply timer_other; exact NE].
      apply te_off; try assumption; try reflexivity. apply timer_same.
    - destruct (Nat.eq_dec x m) as [->|NE]; [|apply te_same; apply timer_other; exact NE].
      eapply (te_inside _ _ _ _ TCall); [reflexivity|apply timer_same|..]; try discriminate; try (intros [O|O]; congruence); [congruence|unfold pc_next; auto].
    - destruct (Nat.eq_dec x m) as [->|NE]; [|apply te_same; apply timer_other; exact NE].
      apply te_end; [reflexivity|apply timer_same|assumption|assumption|assumption].
    - destruct (Nat.eq_dec x m) as [->|NE]; [|apply te_same; apply timer_other; exact NE].
      apply te_done; [reflexivity|apply timer_same|assumption|left; assumption].
    - destruct (Nat.eq_dec x m) as [->|NE].
      + apply te_done; [reflexivity|apply (timer_same (put_act w t (AWait m)))|assumption|right; exists t; split; [assumption|]].
        unput. rewrite tid_eqb_refl. reflexivity.
      + apply te_same. apply (timer_other (put_act w t (AWait m))), NE.
  Qed.
  Lemma todo_move w mv w' t : tmove w mv w' ->
    t_todo w' t = t_todo w t \/
    (mv = Some t /\ exists x, t_todo w t = x :: t_todo w' t /\ can w t /\ t_act w t = AIdle) \/
    (exists m, t = Worker m /\ mv = Some t /\ t_pc (t_timer w m) = TCheck /\ t_pc (t_timer w' m) = TCall /\ t_todo w' t = func (t_log w) m).
  Proof.
    intros Mv. destruct Mv; auto.
    - destruct (tid_eqb_spec t t0) as [->|NE]; [|left; apply todo_other, NE]. right. left. split; [reflexivity|]. exists x. unput. rewrite tid_eqb_refl. auto.
    - destruct (tid_eqb_spec t t0) as [->|NE]; [|left; unput; destruct (tid_eqb_spec t t0); congruence].
      right. left. split; [reflexivity|]. exists x. unput. rewrite tid_eqb_refl. auto.
    - destruct (tid_eqb_spec t (Worker m)) as [->|NE]; [|left; unput; destruct (tid_eqb_spec t (Worker m)) as [|NE2]; [congruence|reflexivity]].
      right. right. exists m. unput. rewrite tid_eqb_refl, Nat.eqb_refl. auto.
  Qed.

  (** ** one owner, falling ranks *)
  Hypothesis HI : hierarchy N func progs owner rank K.
  Definition rightly (t : tid) (x : nat) : Prop :=
    (x < N)%nat /\ owner x = t /\ match t with Worker m => (rank x < rank m)%nat | Outside _ => True end.
  Definition waits (w : tworld) (t : tid) (x : nat) : Prop := t_act w t = AWait x \/ t_act w t = ABlocked x.
  Definition busy (a : act) : nat := match a with AIdle => 0 | _ => 1 end.
  Record hinv (w : tworld) : Prop := {
    i_act : forall t x, stopping w t x -> rightly t x /\ In t tids;
    i_todo : forall t x, In x (t_todo w t) -> rightly t x;
    i_call : forall m, (t_act w (Worker m) <> AIdle \/ t_todo w (Worker m) <> []) -> t_pc (t_timer w m) = TCall;
    i_wait : forall t x, waits w t x -> (t_flag (t_timer w x) = false /\ ~ out (t_timer w x)) \/ (t_flag (t_timer w x) = true /\ out (t_timer w x));
    i_block : forall t x, t_act w t = ABlocked x -> t_pc (t_timer w x) <> TDone;
    i_out : forall x, out (t_timer w x) -> t_stop (t_timer w x) = true \/ waits w (owner x) x \/ t_act w (owner x) = AFin x;
    i_clear : forall t x, t_act w t = AClear x -> t_stop (t_timer w x) = false;
    i_flag : forall x, t_flag (t_timer w x) = false -> waits w (owner x) x;
    i_most : forall m, (length (t_todo w (Worker m)) + busy (t_act w (Worker m)) <= K)%nat
  }.
  Lemma hinv_start : hinv (tstart progs).
  Proof.
    split; cbn [tstart t_act t_timer t_todo t_flag t_stop t_pc].
    - intros t x [H|[H|[H|H]]]; discriminate.
    - intros [m|k] x H; [destruct H|]. destruct (h_progs _ _ _ _ _ _ HI k x H) as [L O]. split; [exact L|]. split; [exact O|exact Logic.I].
    - intros m [H|H]; congruence.
    - intros t x [H|H]; discriminate.
    - discriminate.
    - intros x [H|H]; discriminate.
    - discriminate.
    - discriminate.
    - intros m. cbn. lia.
  Qed.
  Lemma waits_stopping w t x : waits w t x -> stopping w t x.
  Proof. unfold waits, stopping. tauto. Qed.
  Lemma can_tids w t : can w t -> In t tids.
  Proof.
    intros C. unfold TimersModel.tids. apply in_or_app. destruct t as [m|k]; [left|right]; apply in_map_iff.
    - exists m. split; [reflexivity|]. apply in_seq. destruct C. lia.
    - exists k. split; [reflexivity|]. apply in_seq. cbn in C. lia.
  Qed.
  (** The owner is the only one. *)
  Lemma only_owner w t x : hinv w -> stopping w t x -> t = owner x.
  Proof. intros I H. destruct (i_act w I t x H) as [(_ & E & _) _]. congruence. Qed.
  Lemma clear_inside w t x : hinv w -> t_act w t = AClear x -> ~ out (t_timer w x).
  Proof.
    intros I H O. assert (E : t = owner x) by (apply (only_owner w t x I); left; exact H). subst t.
    destruct (i_out w I x O) as [S0|[[S0|S0]|S0]]; try congruence. rewrite (i_clear w I _ _ H) in S0. discriminate.
  Qed.
  Lemma stopping_move w mv w' t x : tmove w mv w' -> stopping w' t x ->
    stopping w t x \/ (mv = Some t /\ can w t /\ In x (t_todo w t)).
  Proof.
    intros Mv H. unfold stopping in *. destruct (act_move w mv w' t Mv) as [E|y rest E C A1 A2 A3 A4 A5|y E A1 A2 A3|y E A1 A2 A3|y E A1 A2 A3|y E A1 A2 A3|y A1 A2].
    - rewrite E in H. left. exact H.
    - rewrite A5 in H. right. split; [exact E|]. split; [exact C|]. rewrite A2. left. destruct H as [H|[H|[H|H]]]; congruence.
    - rewrite A2 in H. left. rewrite A1. left. destruct H as [H|[H|[H|H]]]; congruence.
    - rewrite A3 in H. left. rewrite A1. right. left. destruct H as [H|[H|[H|H]]]; congruence.
    - rewrite A3 in H. left. rewrite A1. right. left. destruct H as [H|[H|[H|H]]]; congruence.
    - rewrite A3 in H. exfalso. destruct H as [H|[H|[H|H]]]; congruence.
    - rewrite A2 in H. left. rewrite A1. right. right. left. destruct H as [H|[H|[H|H]]]; congruence.
  Qed.
  Lemma hinv_move w mv w' : hinv w -> tmove w mv w' -> hinv w'.
  Proof.
    intros I Mv. pose proof (out_mono N M func w w' mv Mv) as OM.
    assert (SM : forall x, t_stop (t_timer w x) = true -> t_stop (t_timer w' x) = true).
    { intros x H. destruct (timer_move w mv w' x Mv) as [E|t _ _ _ E|t _ _ E|_ _ _ E|_ _ _ E|pc _ E _ _ _ _ _|_ E _ _ _|_ E _ _]; rewrite E; try exact H; reflexivity. }
    assert (WM : forall t x, waits w t x -> t_flag (t_timer w x) = false -> waits w' t x).
    { intros t x H F. unfold waits in *. destruct (act_move w mv w' t Mv) as [E|y rest E C A1 A2 A3 A4 A5|y E A1 A2 A3|y E A1 A2 A3|y E A1 A2 A3|y E A1 A2 A3|y A1 A2];
        try (rewrite E; exact H); try (destruct H; congruence).
      - right. destruct H; congruence.
      - left. destruct H; congruence. }
    split.
    - intros t x H. destruct (stopping_move w mv w' t x Mv H) as [S0|(_ & C & S0)]; [apply (i_act w I), S0|].
      split; [apply (i_todo w I), S0|eapply can_tids, C].
    - intros t x H. destruct (todo_move w mv w' t Mv) as [E|[(_ & y & E & _)|(m & -> & _ & _ & _ & E)]].
      + rewrite E in H. apply (i_todo w I), H.
      + apply (i_todo w I). rewrite E. right. exact H.
      + rewrite E in H. destruct (h_func _ _ _ _ _ _ HI _ _ _ H) as (L & O & R). split; [exact L|]. split; [exact O|exact R].
    - intros m H.
      assert (D : t_pc (t_timer w m) = TCall \/ t_pc (t_timer w' m) = TCall).
      { destruct H as [H|H].
        - destruct (act_move w mv w' (Worker m) Mv) as [E|y rest E C A1 A2 A3 A4 A5|y E A1 A2 A3|y E A1 A2 A3|y E A1 A2 A3|y E A1 A2 A3|y A1 A2];
            try (left; apply (i_call w I); left; congruence).
          left. apply C.
        - destruct (todo_move w mv w' (Worker m) Mv) as [E|[(_ & y & E & C & _)|(m' & EM & _ & _ & EP & E)]].
          + left. apply (i_call w I). right. congruence.
          + left. apply C.
          + right. injection EM as <-. exact EP. }
      destruct D as [D|D]; [|exact D].
      destruct (timer_move w mv w' m Mv) as [E|t _ _ _ E|t _ _ E|_ T _ E|_ T _ E|pc EM E NO P1 P2 A PC|_ E T A1 A2|_ E T _]; try (rewrite E; exact D); try congruence.
      destruct H; congruence.
    - intros t x H.
      assert (H0 : waits w t x \/ (mv = Some t /\ t_act w t = AClear x /\ t_flag (t_timer w' x) = false)).
      { unfold waits in *. destruct (act_move w mv w' t Mv) as [E|y rest E C A1 A2 A3 A4 A5|y E A1 A2 A3|y E A1 A2 A3|y E A1 A2 A3|y E A1 A2 A3|y A1 A2];
          try (left; rewrite <- E; exact H); try (destruct H; congruence).
        - right. assert (y = x) by (destruct H; congruence). subst y. auto.
        - left. left. destruct H; congruence.
        - left. right. destruct H; congruence. }
      destruct H0 as [H0|(EM & H0 & F)].
      + destruct (i_wait w I t x H0) as [[F NO]|[F O]].
        * destruct (timer_move w mv w' x Mv) as [E|u _ _ _ E|u _ _ E|_ T T2 E|_ T _ E|pc EM E NO1 P1 P2 A PC|_ E T A1 A2|_ E T _]; try congruence.
          -- left. rewrite E. auto.
          -- left. rewrite E. split; [reflexivity|]. intros [O|O]; apply NO; [left|right]; exact O.
          -- left. rewrite E. split; [exact F|]. intros [O|O]; apply NO; [left|right]; exact O.
          -- right. rewrite E. split; [reflexivity|left; reflexivity].
          -- left. rewrite E. split; [exact F|]. intros [O|O]; cbn in O; congruence.
          -- left. rewrite E. split; [exact F|]. intros [O|O]; cbn in O; congruence.
          -- exfalso. apply NO. left. exact T.
        * right. split; [|apply OM, O].
          destruct (timer_move w mv w' x Mv) as [E|u _ U1 _ E|u _ _ E|_ T T2 E|_ T _ E|pc EM E NO1 P1 P2 A PC|_ E T A1 A2|_ E T _]; try (rewrite E; exact F); try (rewrite E; reflexivity).
          exfalso. assert (t = owner x) by (apply (only_owner w); [exact I|apply waits_stopping, H0]).
          assert (u = owner x) by (apply (only_owner w); [exact I|left; exact U1]). destruct H0; congruence.
      + left. split; [exact F|]. pose proof (clear_inside w t x I H0) as NO.
        destruct (timer_move w mv w' x Mv) as [E|u _ U1 _ E|u _ _ E|_ T T2 E|_ T _ E|pc EM2 E NO1 P1 P2 A PC|_ E T A1 A2|_ E T _].
        * rewrite E. exact NO.
        * rewrite E. intros [O|O]; apply NO; [left|right]; exact O.
        * rewrite E. intros [O|O]; apply NO; [left|right]; exact O.
        * rewrite E in F. discriminate.
        * rewrite E in F. discriminate.
        * rewrite E. intros [O|O]; cbn in O; congruence.
        * rewrite E. intros [O|O]; cbn in O; congruence.
        * exfalso. apply NO. left. exact T.
    - intros t x H HD.
      assert (H0 : t_act w t = ABlocked x \/ (mv = Some t /\ t_act w t = AWait x /\ t_flag (t_timer w x) = false)).
      { destruct (act_move w mv w' t Mv) as [E|y rest E C A1 A2 A3 A4 A5|y E A1 A2 A3|y E A1 A2 A3|y E A1 A2 A3|y E A1 A2 A3|y A1 A2]; try congruence.
        - left. congruence.
        - right. assert (y = x) by congruence. subst y. auto. }
      destruct H0 as [H0|(EM & H0 & F)].
      + pose proof (i_block w I t x H0) as ND.
        destruct (timer_move w mv w' x Mv) as [E|u _ U1 _ E|u _ _ E|_ T T2 E|_ T _ E|pc EM E NO1 P1 P2 A PC|_ E T A1 A2|_ E T B]; rewrite E in HD; cbn in HD; try congruence.
        destruct B as [B|(u & B1 & B2)].
        * apply (B t); [|exact H0]. apply (i_act w I t x). right. right. left. exact H0.
        * assert (t = owner x) by (apply (only_owner w); [exact I|right; right; left; exact H0]).
          assert (u = owner x) by (apply (only_owner w); [exact I|right; right; left; exact B1]). congruence.
      + destruct (i_wait w I t x (or_introl H0)) as [[_ NO]|[F2 _]]; [|congruence].
        destruct (timer_move w mv w' x Mv) as [E|u _ U1 _ E|u _ _ E|_ T T2 E|_ T _ E|pc EM2 E NO1 P1 P2 A PC|_ E T A1 A2|_ E T B]; rewrite E in HD; cbn in HD; try congruence.
        * apply NO. right. exact HD.
        * apply NO. right. exact HD.
        * apply NO. right. exact HD.
        * apply NO. left. exact T.
    - intros x O.
      assert (H0 : out (t_timer w x) \/ t_flag (t_timer w x) = false).
      { destruct (timer_move w mv w' x Mv) as [E|u _ U1 _ E|u _ _ E|_ T T2 E|_ T T2 E|pc EM2 E NO1 P1 P2 A PC|_ E T A1 A2|_ E T B]; rewrite E in O.
        - left. exact O.
        - left. exact O.
        - left. exact O.
        - destruct O as [O|O]; discriminate O.
        - right. exact T2.
        - destruct O as [O|O]; cbn in O; congruence.
        - destruct O as [O|O]; discriminate O.
        - left. left. exact T. }
      destruct H0 as [H0|H0].
      + destruct (i_out w I x H0) as [S0|S0]; [left; apply SM, S0|].
        destruct (act_move w mv w' (owner x) Mv) as [E|y rest E C A1 A2 A3 A4 A5|y E A1 A2 A3|y E A1 A2 A3|y E A1 A2 A3|y E A1 A2 A3|y A1 A2];
          unfold waits in *.
        * rewrite E. right. exact S0.
        * destruct S0 as [[S0|S0]|S0]; congruence.
        * destruct S0 as [[S0|S0]|S0]; congruence.
        * right. right. destruct S0 as [[S0|S0]|S0]; congruence.
        * right. left. right. destruct S0 as [[S0|S0]|S0]; congruence.
        * left. assert (y = x) by (destruct S0 as [[S0|S0]|S0]; congruence). congruence.
        * right. left. left. destruct S0 as [[S0|S0]|S0]; congruence.
      + right. left. apply WM; [apply (i_flag w I), H0|exact H0].
    - intros t x H.
      assert (S0 : stopping w t x \/ t_stop (t_timer w x) = false).
      { destruct (act_move w mv w' t Mv) as [E|y rest E C A1 A2 A3 A4 A5|y E A1 A2 A3|y E A1 A2 A3|y E A1 A2 A3|y E A1 A2 A3|y A1 A2]; try congruence.
        - left. left. congruence.
        - right. congruence. }
      assert (B0 : t_stop (t_timer w x) = false).
      { destruct (act_move w mv w' t Mv) as [E|y rest E C A1 A2 A3 A4 A5|y E A1 A2 A3|y E A1 A2 A3|y E A1 A2 A3|y E A1 A2 A3|y A1 A2]; try congruence.
        apply (i_clear w I t). congruence. }
      destruct (timer_move w mv w' x Mv) as [E|u _ U1 _ E|u EM U1 E|_ T T2 E|_ T T2 E|pc EM2 E NO1 P1 P2 A PC|_ E T A1 A2|_ E T B]; rewrite E; try exact B0.
      exfalso. assert (u = owner x) by (apply (only_owner w); [exact I|right; right; right; exact U1]).
      destruct (act_move w mv w' t Mv) as [E1|y rest E1 C A1 A2 A3 A4 A5|y E1 A1 A2 A3|y E1 A1 A2 A3|y E1 A1 A2 A3|y E1 A1 A2 A3|y A1 A2]; try congruence.
      assert (t = owner x) by (apply (only_owner w); [exact I|left; congruence]). congruence.
    - intros x F.
      assert (H0 : t_flag (t_timer w x) = false \/ exists u, t_act w u = AClear x /\ t_act w' u = AWait x).
      { destruct (timer_move w mv w' x Mv) as [E|u _ U1 U2 E|u EM U1 E|_ T T2 E|_ T T2 E|pc EM2 E NO1 P1 P2 A PC|_ E T A1 A2|_ E T B]; rewrite E in F; try discriminate; try (left; exact F).
        right. exists u. auto. }
      destruct H0 as [H0|(u & U1 & U2)].
      + apply WM; [apply (i_flag w I), H0|exact H0].
      + assert (u = owner x) by (apply (only_owner w); [exact I|left; exact U1]). subst u. left. exact U2.
    - intros m. pose proof (i_most w I m) as L.
      destruct (todo_move w mv w' (Worker m) Mv) as [E|[(_ & y & E & C & A)|(m' & EM & EV & EP & EP2 & E)]].
      + rewrite E. destruct (act_move w mv w' (Worker m) Mv) as [E1|y rest E1 C A1 A2 A3 A4 A5|y E1 A1 A2 A3|y E1 A1 A2 A3|y E1 A1 A2 A3|y E1 A1 A2 A3|y A1 A2].
        * rewrite E1. exact L.
        * exfalso. rewrite A2 in E. rewrite E in A3. assert (X : length (y :: rest) = length rest) by (rewrite A3; reflexivity). cbn in X. lia.
        * rewrite A1 in L. rewrite A2. exact L.
        * rewrite A1 in L. rewrite A3. exact L.
        * rewrite A1 in L. rewrite A3. exact L.
        * rewrite A1 in L. rewrite A3. cbn [busy] in *. lia.
        * rewrite A1 in L. rewrite A2. exact L.
      + rewrite E, A in L. cbn [busy length] in L. assert (busy (t_act w' (Worker m)) <= 1)%nat by (destruct (t_act w' (Worker m)); cbn; lia). lia.
      + injection EM as <-. rewrite E. pose proof (h_most _ _ _ _ _ _ HI (t_log w) m).
        assert (AI : t_act w (Worker m) = AIdle).
        { destruct (t_act w (Worker m)) eqn:EA; [reflexivity|..]; exfalso; assert (X : t_pc (t_timer w m) = TCall) by (apply (i_call w I); left; rewrite EA; discriminate); congruence. }
        assert (AI2 : t_act w' (Worker m) = AIdle).
        { destruct (act_move w mv w' (Worker m) Mv) as [E1|y rest E1 C A1 A2 A3 A4 A5|y E1 A1 A2 A3|y E1 A1 A2 A3|y E1 A1 A2 A3|y E1 A1 A2 A3|y A1 A2]; try congruence.
          destruct C; congruence. }
        rewrite AI2. cbn [busy]. lia.
  Qed.
  Lemma hinv_run w s : hinv w -> hinv (trun w s).
  Proof.
    revert w. induction s as [|a s IH]; intros w I; [exact I|]. apply IH. eapply hinv_move; [exact I|apply tstep_moves].
  Qed.
End Timers.
