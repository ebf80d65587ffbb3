(** Many threads calling stop() in turn, reduced to one. *)
From Verif Require Export IntervalProofs2.

Definition e0 (e : event) : event :=
  match e with EClear _ => EClear 0 | EReturn _ => EReturn 0 | e => e end.
Definition emb (n k : nat) (c : cpc) : list cpc := put_at (repeat CIdle n) k c.
Definition proj (s : st) (c : cpc) : st :=
  St (alive s) (initd s) (flag s) (stopf s) (period s) (last s) (worker s) [c] (map e0 (log s)).
Definition rho (l : label) : label :=
  match l with
  | LStop _ d => LStop 0 d | LCaller _ => LCaller 0 | LSpurious _ => LSpurious 0
  | LWorker now _ => LWorker now 0 | l => l
  end.
Definition mine (k : nat) (l : label) : bool :=
  match l with LStop j _ | LCaller j | LSpurious j => Nat.eqb j k | _ => true end.

Lemma emb_at n k c : (k < n)%nat -> nth_error (emb n k c) k = Some c.
Proof. revert k. induction n as [|n IH]; intros [|k] L; try lia; cbn; [reflexivity|]. apply IH. lia. Qed.
Lemma emb_off n k c j x : j <> k -> nth_error (emb n k c) j = Some x -> x = CIdle.
Proof.
  revert k j. induction n as [|n IH]; intros [|k] [|j] N H; cbn in *; try discriminate; try congruence.
  - apply nth_error_In, repeat_spec in H. exact H.
  - apply (IH k j); [congruence|exact H].
Qed.
Lemma emb_put n k c c' : put_at (emb n k c) k c' = emb n k c'.
Proof. unfold emb. revert k. induction n as [|n IH]; intros [|k]; cbn; try reflexivity. f_equal. apply IH. Qed.
Lemma emb_idle n k : emb n k CIdle = repeat CIdle n.
Proof. unfold emb. revert k. induction n as [|n IH]; intros [|k]; cbn; try reflexivity. f_equal. apply IH. Qed.
Lemma wake_idle n : wake_first (repeat CIdle n) = repeat CIdle n.
Proof. induction n as [|n IH]; cbn; [reflexivity|]. f_equal. exact IH. Qed.
Lemma emb_wake n k c : wake_first (emb n k c) = emb n k (awake c).
Proof.
  unfold emb. revert k. induction n as [|n IH]; intros [|k]; cbn; try reflexivity.
  - destruct c; cbn; try reflexivity; f_equal; apply wake_idle.
  - f_equal. apply IH.
Qed.
Lemma emb_notify n k c who : notify (emb n k c) who = emb n k (awake c).
Proof.
  unfold notify. destruct (nth_error (emb n k c) who) as [x|] eqn:E; [|apply emb_wake].
  destruct x; try apply emb_wake. destruct (Nat.eq_dec who k) as [->|N]; [|apply emb_off in E; [discriminate|exact N]].
  destruct (Nat.lt_ge_cases k n) as [L|L].
  - rewrite (emb_at n k c L) in E. inversion E; subst c. rewrite emb_put. reflexivity.
  - apply nth_error_Some_lt in E || (assert (H : (k < length (emb n k c))%nat) by (apply nth_error_Some; congruence);
      unfold emb in H; rewrite put_at_length, repeat_length in H; lia).
Qed.
Lemma one_notify c : notify [c] 0 = [awake c].
Proof. destruct c; reflexivity. Qed.

Lemma sim n k s c l : (k < n)%nat -> callers s = emb n k c -> mine k l = true ->
  match step s l with
  | Ok (Some s') => exists c', callers s' = emb n k c' /\ step (proj s c) (rho l) = Ok (Some (proj s' c'))
  | Ok None => step (proj s c) (rho l) = Ok None
  | UB => step (proj s c) (rho l) = UB
  | Fuel => False
  end.
Proof.
  intros L EC M. destruct l as [|now who| |i d|i|i|q]; cbn [mine] in M; try (apply Nat.eqb_eq in M; subst i);
    cbn [step rho].
  - cbn [proj initd]. destruct (initd s); [reflexivity|]. exists c. split; [exact EC|reflexivity].
  - unfold wstep. cbn [proj worker alive flag initd]. destruct (worker s) eqn:W;
      try (destruct (alive s) eqn:A; [|reflexivity]); try (destruct (initd s) eqn:I; [|reflexivity]); cbn [andb];
      try reflexivity;
      try (exists c; split; [exact EC|]; unfold proj; cbn; rewrite ?A, ?I; reflexivity).
    + destruct (flag s) eqn:F; [|reflexivity]. exists c. split; [exact EC|]. unfold proj; cbn; rewrite ?A, ?F; reflexivity.
    + exists (awake c). cbn [set_worker set_callers callers]. split; [rewrite EC; apply emb_notify|].
      unfold proj. cbn [set_worker set_callers callers alive initd flag stopf period last worker log]. rewrite ?A, one_notify. reflexivity.
  - cbn [proj worker alive stopf]. destruct (worker s) eqn:W; try reflexivity. destruct (alive s) eqn:A; [|reflexivity].
    destruct (stopf s) eqn:S; exists c; (split; [exact EC|]); unfold proj; cbn; rewrite ?A, ?W, ?S; reflexivity.
  - rewrite EC, (emb_at n k c L). cbn [proj callers nth_error initd alive stopf]. destruct c; try reflexivity.
    destruct (initd s) eqn:I; [|reflexivity]. destruct (alive s) eqn:A; [|reflexivity]. destruct (stopf s) eqn:S.
    + exists CIdle. split; [destruct d; exact EC|]. destruct d; unfold proj; cbn; rewrite ?I, ?A, ?S; reflexivity.
    + exists (CClear d). cbn. split; [rewrite EC; apply emb_put|]. unfold proj; cbn; rewrite ?I, ?A, ?S; reflexivity.
  - unfold cstep. rewrite EC, (emb_at n k c L). cbn [proj callers nth_error alive flag]. destruct c as [|d|d|d|d]; try reflexivity;
      (destruct (alive s) eqn:A; [|reflexivity]).
    + exists (CWait d). cbn. split; [rewrite EC; apply emb_put|]. unfold proj; cbn; rewrite ?A; reflexivity.
    + exists (if flag s then CFin d else CBlocked d). cbn. split; [rewrite EC; apply emb_put|]. unfold proj; cbn; rewrite ?A; reflexivity.
    + exists CIdle. destruct d; cbn; (split; [rewrite EC; apply emb_put|]); unfold proj; cbn; rewrite ?A; reflexivity.
  - rewrite EC, (emb_at n k c L). cbn [proj callers nth_error]. destruct c as [|d|d|d|d]; try reflexivity.
    exists (CWait d). cbn. split; [rewrite EC; apply emb_put|]. reflexivity.
  - cbn [proj initd alive]. destruct (initd s) eqn:I; [|reflexivity]. destruct (alive s) eqn:A; [|reflexivity].
    exists c. split; [exact EC|]. unfold proj; cbn; rewrite ?A, ?I; reflexivity.
Qed.

Lemma not_mine n k s c l : callers s = emb n k c -> mine k l = false -> (forall i d, l <> LStop i d) -> step s l = Ok None.
Proof.
  intros EC M NS. destruct l as [|now who| |i d|i|i|q]; cbn [mine] in M; try discriminate.
  - exfalso. eapply NS. reflexivity.
  - apply Nat.eqb_neq in M. cbn [step]. unfold cstep. rewrite EC. destruct (nth_error (emb n k c) i) as [x|] eqn:E; [|reflexivity].
    rewrite (emb_off _ _ _ _ _ M E). reflexivity.
  - apply Nat.eqb_neq in M. cbn [step]. rewrite EC. destruct (nth_error (emb n k c) i) as [x|] eqn:E; [|reflexivity].
    rewrite (emb_off _ _ _ _ _ M E). reflexivity.
Qed.

(** Every step with stops in turn is a step of the machine with one thread. *)
Lemma turn_step n k s c l s' : (k < n)%nat -> callers s = emb n k c ->
  (forall i d, l = LStop i d -> forall j c, j <> i -> nth_error (callers s) j = Some c -> c = CIdle) ->
  step s l = Ok (Some s') ->
  exists k' c', (k' < n)%nat /\ callers s' = emb n k' c' /\ step (proj s c) (rho l) = Ok (Some (proj s' c')).
Proof.
  intros L EC T E. destruct (mine k l) eqn:M.
  - pose proof (sim n k s c l L EC M) as H. rewrite E in H. destruct H as (c' & H1 & H2). exists k, c'. auto.
  - destruct l as [|now who| |i d|i|i|q]; cbn [mine] in M; try discriminate.
    + apply Nat.eqb_neq in M.
      assert (c = CIdle) as ->.
      { apply (T i d eq_refl k); [congruence|]. rewrite EC. apply emb_at, L. }
      assert (LI : (i < n)%nat).
      { cbn [step] in E. destruct (nth_error (callers s) i) eqn:N; [|discriminate].
        assert (H : nth_error (callers s) i <> None) by congruence. apply nth_error_Some in H.
        rewrite EC, emb_idle, repeat_length in H. exact H. }
      assert (EC' : callers s = emb n i CIdle) by (rewrite EC, !emb_idle; reflexivity).
      pose proof (sim n i s CIdle (LStop i d) LI EC' (Nat.eqb_refl i)) as H. rewrite E in H.
      destruct H as (c' & H1 & H2). exists i, c'. auto.
    + rewrite (not_mine n k s c (LCaller i) EC) in E; [discriminate|exact M|discriminate].
    + rewrite (not_mine n k s c (LSpurious i) EC) in E; [discriminate|exact M|discriminate].
Qed.
Lemma rho_cb l : callback_stops (rho l) = callback_stops l.
Proof. destruct l; reflexivity. Qed.

Lemma turn_linv n ls : forall k s c s', (k < n)%nat -> callers s = emb n k c -> linv (proj s c) ->
  forallb (fun l => negb (callback_stops l)) ls = true -> stops_in_turn s ls -> run s ls = Ok s' ->
  exists k' c', (k' < n)%nat /\ callers s' = emb n k' c' /\ linv (proj s' c').
Proof.
  induction ls as [|l ls IH]; intros k s c s' L EC V F T R; cbn [run forallb stops_in_turn] in *.
  - inversion R; subst s'. exists k, c. auto.
  - apply andb_prop in F. destruct F as (F1 & F2). destruct T as (T1 & T2).
    destruct (step s l) as [[s1|]| |] eqn:ES; try discriminate.
    + destruct (turn_step n k s c l s1 L EC T1 ES) as (k' & c' & L' & EC' & ES').
      apply (IH k' s1 c' s' L' EC'); try assumption.
      eapply step_linv; [exact V| |exact ES']. rewrite rho_cb. destruct (callback_stops l); [discriminate|reflexivity].
    + apply (IH k s c s'); assumption.
Qed.
Lemma turn_reach p n ls s i : forallb (fun l => negb (callback_stops l)) ls = true ->
  stops_in_turn (init p n) ls -> run (init p n) ls = Ok s -> in_stop s i ->
  (i < n)%nat /\ exists c, callers s = emb n i c /\ linv (proj s c) /\ in_stop (proj s c) 0.
Proof.
  intros F T R IS. destruct n as [|n].
  - exfalso. assert (G : forall ls s0 s, callers s0 = [] -> run s0 ls = Ok s -> callers s = []).
    { clear. induction ls as [|l ls IH]; intros s0 s E R; cbn [run] in R; [inversion R; subst; exact E|].
      destruct (step s0 l) as [[s1|]| |] eqn:ES; try discriminate; [|apply (IH s0); assumption].
      apply (IH s1); [|exact R]. clear - E ES. destruct l; cbn [step] in ES; unfold wstep, cstep in ES; rewrite ?E in ES;
        repeat match type of ES with context [match nth_error [] ?i with _ => _ end] => replace (nth_error (@nil cpc) i) with (@None cpc) in ES by (destruct i; reflexivity) end;
        try discriminate;
        repeat match type of ES with context [match ?b with _ => _ end] => destruct b end; inversion ES; subst; cbn; rewrite ?E; try reflexivity.
      unfold notify. destruct who; reflexivity. }
    pose proof (G ls (init p 0) s eq_refl R) as E. destruct IS as (d & H). rewrite E in H.
    assert (N : nth_error (@nil cpc) i = None) by (destruct i; reflexivity). rewrite N in H. intuition discriminate.
  - destruct (turn_linv (S n) ls 0 (init p (S n)) CIdle s) as (k & c & L & EC & V); try assumption; try lia; try reflexivity.
    { apply linv_init. }
    assert (K : i = k).
    { destruct (Nat.eq_dec i k) as [E|N]; [exact E|exfalso]. destruct IS as (d & H). rewrite EC in H.
      destruct H as [H|[H|H]]; apply (emb_off _ _ _ _ _ N) in H; discriminate. }
    subst k. split; [exact L|]. exists c. split; [exact EC|]. split; [exact V|].
    destruct IS as (d & H). exists d. rewrite EC, (emb_at _ _ _ L) in H. cbn. exact H.
Qed.

(** Back again: steps of the worker and thread [k]. *)
Lemma works_mine k l : works_for k l = true -> mine k l = true.
Proof. destruct l; cbn; try discriminate; auto. Qed.
Lemma works_rho k l : works_for k l = true -> works_for 0 (rho l) = true.
Proof. destruct l; cbn; try discriminate; auto. Qed.
Lemma proj_run n k : (k < n)%nat -> forall ls s c t, callers s = emb n k c -> forallb (works_for k) ls = true ->
  run (proj s c) (map rho ls) = Ok t ->
  exists s' c', run s ls = Ok s' /\ callers s' = emb n k c' /\ t = proj s' c' /\
    steps_taken s ls = steps_taken (proj s c) (map rho ls).
Proof.
  intros L. induction ls as [|l ls IH]; intros s c t EC W R; cbn [map run forallb steps_taken] in *.
  - inversion R; subst t. exists s, c. auto.
  - apply andb_prop in W. destruct W as (W1 & W2). pose proof (sim n k s c l L EC (works_mine _ _ W1)) as H.
    destruct (step s l) as [[s1|]| |] eqn:ES.
    + destruct H as (c1 & H1 & H2). rewrite H2 in *. destruct (IH s1 c1 t H1 W2 R) as (s' & c' & A & B & C & D).
      exists s', c'. rewrite D. auto.
    + rewrite H in *. apply (IH s c t EC W2 R).
    + rewrite H in R. discriminate.
    + contradiction.
Qed.
Lemma proj_enabled n k s c l : (k < n)%nat -> callers s = emb n k c -> mine k l = true -> enabled (proj s c) (rho l) -> enabled s l.
Proof.
  intros L EC M (t & E). pose proof (sim n k s c l L EC M) as H. destruct (step s l) as [[s1|]| |] eqn:ES; try congruence; [exists s1; exact ES|contradiction].
Qed.

Lemma map_app_inv {A B} (f : A -> B) l a b : map f l = a ++ b -> exists l1 l2, l = l1 ++ l2 /\ map f l1 = a /\ map f l2 = b.
Proof.
  revert a. induction l as [|x l IH]; intros a E.
  - cbn in E. symmetry in E. apply app_eq_nil in E. destruct E as (-> & ->). exists [], []. auto.
  - destruct a as [|y a]; [exists [], (x :: l); auto|]. cbn in E. inversion E as [[E1 E2]]. destruct (IH a E2) as (l1 & l2 & -> & H1 & H2).
    exists (x :: l1), l2. cbn. rewrite H1. auto.
Qed.

(** A stop() that has returned has left stop_ set. *)
Lemma returned_stopf p n s : reachable p n s -> (exists i, In (EReturn i) (log s)) -> stopf s = true /\ initd s = true.
Proof.
  intros (ls & E) H.
    assert (Q : inv s /\ ((exists i, In (EReturn i) (log s)) -> stopf s = true /\ initd s = true)); [|apply Q, H]. clear H.
    refine (run_ind (fun s => inv s /\ ((exists i, In (EReturn i) (log s)) -> stopf s = true /\ initd s = true)) _ ls (init p n) s _ E).
    2:{ split; [apply inv_init|]. intros (i & []). }
    clear. intros s l s' (V & IH) E. split; [eapply step_inv; eassumption|].
    destruct l as [|now who| |k d|k|k|q]; cbn [step] in E.
    - destruct (initd s) eqn:I; inversion E; subst; cbn. intros H. split; [apply IH, H|reflexivity].
    - unfold wstep in E. destruct (worker s); repeat (match type of E with context [if ?b then _ else _] => destruct b eqn:?B end); inversion E; subst s'; cbn;
        intros (i & H); repeat (destruct H as [H|H]; [discriminate|]); (split; [|apply IH; exists i; exact H]); try reflexivity; apply IH; exists i; exact H.
    - destruct (worker s); try discriminate. destruct (alive s); [|discriminate]. inversion E; subst s'. destruct (stopf s) eqn:S; cbn; rewrite ?S; exact IH.
    - destruct (nth_error (callers s) k) as [[]|]; try discriminate. destruct (initd s) eqn:I; [|discriminate].
      destruct (alive s); [|discriminate]. destruct (stopf s) eqn:S; inversion E; subst s'.
      + intros _. destruct d; cbn; auto.
      + cbn. rewrite S, I. exact IH.
    - unfold cstep in E. destruct (nth_error (callers s) k) as [c|] eqn:N; [|discriminate].
      assert (ID : c <> CIdle -> initd s = true) by (intros Q; eapply busy_initd; eassumption).
      destruct c as [|e|e|e|e]; try discriminate; (destruct (alive s); [|discriminate]); inversion E; subst s'.
      + cbn. intros (i & [H|H]); [discriminate|]. apply IH. exists i. exact H.
      + exact IH.
      + intros _. specialize (ID ltac:(discriminate)). destruct e; cbn; auto.
    - destruct (nth_error (callers s) k) as [[]|]; try discriminate. inversion E; subst s'. exact IH.
    - destruct (initd s) eqn:I; [|discriminate]. destruct (alive s); [|discriminate]. inversion E; subst s'. cbn. rewrite I.
      intros (i & [H|H]); [discriminate|]. apply IH. exists i. exact H.
Qed.

Lemma works_log k ls : forall s s', forallb (works_for k) ls = true -> run s ls = Ok s' ->
  exists new, log s' = new ++ log s /\ forall j, In (EReturn j) new -> j = k.
Proof.
  induction ls as [|l ls IH]; intros s s' W R; cbn [run forallb] in *.
  - inversion R; subst s'. exists []. split; [reflexivity|]. intros j [].
  - apply andb_prop in W. destruct W as (W1 & W2).
    assert (G : forall s1, step s l = Ok (Some s1) -> exists new, log s1 = new ++ log s /\ forall j, In (EReturn j) new -> j = k).
    { intros s1 E. destruct l as [|now who| |i d|i|i|q]; try discriminate W1; cbn [step] in E.
      - unfold wstep in E. destruct (worker s);
          repeat (match type of E with context [if ?b then _ else _] => destruct b end); try discriminate;
          inversion E; subst s1; cbn;
          first [exists []; split; [reflexivity|intros j []] | eexists [_]; split; [reflexivity|intros j [H|[]]; discriminate]].
      - cbn in W1. apply Nat.eqb_eq in W1. subst i. unfold cstep in E.
        destruct (nth_error (callers s) k) as [[|d|d|d|d]|]; try discriminate; (destruct (alive s); [|discriminate]); inversion E; subst s1.
        + exists [EClear k]. split; [reflexivity|]. intros j [H|[]]; discriminate.
        + exists []. split; [reflexivity|]. intros j [].
        + destruct d; cbn.
          * exists [EReturn k; EDestroyed]. split; [reflexivity|]. intros j [H|[H|[]]]; congruence.
          * exists [EReturn k]. split; [reflexivity|]. intros j [H|[]]; congruence. }
    destruct (step s l) as [[s1|]| |] eqn:ES; try discriminate; [|apply (IH s s' W2 R)].
    destruct (G s1 eq_refl) as (n1 & E1 & H1). destruct (IH s1 s' W2 R) as (n2 & E2 & H2).
    exists (n2 ++ n1). split; [rewrite E2, E1, app_assoc; reflexivity|]. intros j H. apply in_app_or in H. destruct H; auto.
Qed.
Lemma hd_return p n s c k ls s' c' : reachable p n s -> linv (proj s c) -> in_stop (proj s c) 0 ->
  forallb (works_for k) ls = true -> run s ls = Ok s' ->
  hd_error (log (proj s' c')) = Some (EReturn 0) -> hd_error (log s') = Some (EReturn k).
Proof.
  intros RE V IS W R H. destruct (works_log k ls s s' W R) as (new & E & N). cbn in H.
  assert (NR : forall j, ~ In (EReturn j) (log s)).
  { intros j HI. destruct (returned_stopf p n s RE (ex_intro _ j HI)) as (SF & _).
    destruct V as (_ & x & EX & M). cbn in EX. inversion EX; subst x. destruct IS as (d & IS). cbn in IS, M.
    destruct IS as [IS|[IS|IS]]; inversion IS; subst c; destruct M as (M & _); congruence. }
  assert (G : forall j, In (EReturn j) (log s') -> j = k).
  { intros j HI. rewrite E in HI. apply in_app_or in HI. destruct HI as [HI|HI]; [auto|]. exfalso. exact (NR j HI). }
  destruct (log s') as [|e lg]; cbn in *; [discriminate|]. destruct e; cbn in H; try discriminate.
  rewrite (G i (or_introl eq_refl)). reflexivity.
Qed.

Lemma turn_rounds p n ls s i rounds : forallb (fun l => negb (callback_stops l)) ls = true ->
  stops_in_turn (init p n) ls -> run (init p n) ls = Ok s -> in_stop s i ->
  Forall (fair_round i) rounds -> length rounds = 10%nat ->
  exists l1 l2 s', concat rounds = l1 ++ l2 /\ run s l1 = Ok s' /\ hd_error (log s') = Some (EReturn i).
Proof.
  intros F T R IS FR LR. destruct (turn_reach p n ls s i F T R IS) as (L & c & EC & V & IS').
  destruct (rounds_return (map (map rho) rounds) (proj s c) V IS') as (m1 & m2 & t & E1 & E2 & E3).
  - apply Forall_map. eapply Forall_impl; [|exact FR]. intros r (W & C & now & who & K). split; [|split].
    + clear - W. induction r as [|l r IH]; [reflexivity|]. cbn in *. apply andb_prop in W. destruct W as (W1 & W2).
      rewrite (works_rho i l W1). apply IH, W2.
    + apply in_map_iff. exists (LCaller i). auto.
    + exists now, 0%nat. apply in_map_iff. exists (LWorker now who). auto.
  - rewrite map_length, LR. apply rank_bound.
  - rewrite <- concat_map in E1. apply map_app_inv in E1. destruct E1 as (l1 & l2 & E1 & <- & <-).
    assert (W : forallb (works_for i) l1 = true).
    { assert (H : forallb (works_for i) (concat rounds) = true).
      { clear - FR. induction FR as [|r rs (W & _) _ IH]; [reflexivity|]. cbn. rewrite forallb_app, W. exact IH. }
      rewrite E1, forallb_app in H. apply andb_prop in H. apply H. }
    destruct (proj_run n i L l1 s c t EC W E2) as (s' & c' & A & B & -> & _).
    exists l1, l2, s'. split; [exact E1|]. split; [exact A|].
    exact (hd_return p n s c i l1 s' c' (ex_intro _ ls R) V IS' W A E3).
Qed.
Lemma turn_bounded p n ls s i ls' : forallb (fun l => negb (callback_stops l)) ls = true ->
  stops_in_turn (init p n) ls -> run (init p n) ls = Ok s -> in_stop s i -> forallb (works_for i) ls' = true ->
  (exists l1 l2 s', ls' = l1 ++ l2 /\ run s l1 = Ok s' /\ hd_error (log s') = Some (EReturn i)) \/
  (exists s', run s ls' = Ok s' /\ (steps_taken s ls' <= 10)%nat /\ exists l, works_for i l = true /\ enabled s' l).
Proof.
  intros F T R IS W. destruct (turn_reach p n ls s i F T R IS) as (L & c & EC & V & IS').
  assert (W0 : forallb (works_for 0) (map rho ls') = true).
  { clear - W. induction ls' as [|l r IH]; [reflexivity|]. cbn in *. apply andb_prop in W. destruct W as (W1 & W2).
    rewrite (works_rho i l W1). apply IH, W2. }
  destruct (round_weak (map rho ls') (proj s c) V IS' W0) as [(m1 & m2 & t & E1 & E2 & E3)|(t & E & V' & IS2 & B)].
  - left. apply map_app_inv in E1. destruct E1 as (l1 & l2 & -> & <- & <-).
    rewrite forallb_app in W. apply andb_prop in W. destruct W as (W & _).
    destruct (proj_run n i L l1 s c t EC W E2) as (s' & c' & A & B & -> & _).
    exists l1, l2, s'. split; [reflexivity|]. split; [exact A|].
    exact (hd_return p n s c i l1 s' c' (ex_intro _ ls R) V IS' W A E3).
  - right. destruct (proj_run n i L ls' s c t EC W E) as (s' & c' & A & B' & -> & ST).
    exists s'. split; [exact A|]. split; [rewrite ST; pose proof (rank_bound (proj s c)); lia|].
    destruct (rank_progress _ V' IS2) as ([H|H] & _).
    + exists (LCaller i). cbn. rewrite Nat.eqb_refl. split; [reflexivity|].
      apply (proj_enabled n i s' c' (LCaller i) L B'); [apply Nat.eqb_refl|exact H].
    + exists (LWorker 0 0). split; [reflexivity|].
      apply (proj_enabled n i s' c' (LWorker 0 0) L B'); [reflexivity|apply H].
Qed.

(** Before anybody has called stop(). *)
Definition unstopped (s : st) : Prop :=
  (forall i, ~ In (EClear i) (log s)) -> flag s = true /\ ~ gone (worker s) /\ no_cb (worker s).
Lemma step_unstopped s l s' : unstopped s -> callback_stops l = false -> step s l = Ok (Some s') -> unstopped s'.
Proof.
  intros U NCB E NC.
  assert (K : forall lg, log s' = lg ++ log s -> forall i, ~ In (EClear i) (log s)).
  { intros lg EL i H. apply (NC i). rewrite EL. apply in_or_app. right. exact H. }
  destruct l as [|now who| |k d|k|k|q]; cbn [step] in E; try discriminate NCB.
  - destruct (initd s); [discriminate|]. inversion E; subst s'. apply U. exact NC.
  - assert (KW : forall i, ~ In (EClear i) (log s)).
    { unfold wstep in E. destruct (worker s); repeat (match type of E with context [if ?b then _ else _] => destruct b end); try discriminate;
        inversion E; subst s'; first [apply (K []); reflexivity | eapply (K [_]); reflexivity]. }
    destruct (U KW) as (F & G & C). unfold wstep in E. rewrite F in E.
    destruct (worker s) eqn:W; repeat (match type of E with context [if ?b then _ else _] => destruct b end); try discriminate;
      try contradiction C; inversion E; subst s'; cbn; (split; [first [reflexivity | exact F]|]); (split; [try (intros [H|H]; discriminate)|exact Logic.I]).
    exfalso. apply G. left. reflexivity.
  - destruct (nth_error (callers s) k) as [[]|]; try discriminate. destruct (initd s); [|discriminate].
    destruct (alive s); [|discriminate]. destruct (stopf s); inversion E; subst s'.
    + destruct d; cbn; apply U; [apply (K [EReturn k; EDestroyed])|apply (K [EReturn k])]; reflexivity.
    + apply U. apply (K []). reflexivity.
  - unfold cstep in E. destruct (nth_error (callers s) k) as [[]|]; try discriminate; (destruct (alive s); [|discriminate]); inversion E; subst s'.
    + exfalso. apply (NC k). left. reflexivity.
    + apply U. apply (K []). reflexivity.
    + destruct d; cbn; apply U; [apply (K [EReturn k; EDestroyed])|apply (K [EReturn k])]; reflexivity.
  - destruct (nth_error (callers s) k) as [[]|]; try discriminate. inversion E; subst s'. apply U. apply (K []). reflexivity.
  - destruct (initd s); [|discriminate]. destruct (alive s); [|discriminate]. inversion E; subst s'. apply U. apply (K [EPeriod q]). reflexivity.
Qed.
Lemma run_unstopped p n ls s : forallb (fun l => negb (callback_stops l)) ls = true -> run (init p n) ls = Ok s -> unstopped s.
Proof.
  assert (G : forall ls s0, forallb (fun l => negb (callback_stops l)) ls = true -> unstopped s0 -> run s0 ls = Ok s -> unstopped s).
  { clear ls. induction ls as [|l ls IH]; intros s0 F C E; cbn [run forallb] in *; [inversion E; subst; exact C|].
    apply andb_prop in F. destruct F as (F1 & F2). destruct (step s0 l) as [[s1|]| |] eqn:ES; try discriminate; [|apply (IH s0); assumption].
    apply (IH s1); try assumption. eapply step_unstopped; try eassumption. destruct (callback_stops l); [discriminate|reflexivity]. }
  intros F E. apply (G ls (init p n)); try assumption.
  intros _. split; [reflexivity|]. split; [intros [H|H]; discriminate|exact Logic.I].
Qed.
(** The worker on its own comes to read either setting, within six steps. *)
Lemma comes_to_read s m now : flag s = true -> ~ gone (worker s) -> no_cb (worker s) -> alive s = true -> initd s = true ->
  exists k s', (k <= 6)%nat /\ run s (repeat (LWorker now 0) k) = Ok s' /\ about_to_read s' m /\ alive s' = true /\ initd s' = true.
Proof.
  intros F G C A I.
  destruct s as [al ini fl sf pe la w cs lg]. cbn in F, G, C, A, I. subst al ini fl.
  (* from the comparison on, enough steps whatever its outcome *)
  destruct m.
  - destruct w; try contradiction C; try (exfalso; apply G; first [left; reflexivity | right; reflexivity]).
    + exists 2%nat. eexists. split; [lia|]. split; [reflexivity|]. cbn. auto.
    + exists 1%nat. eexists. split; [lia|]. split; [reflexivity|]. cbn. auto.
    + exists 0%nat. eexists. split; [lia|]. split; [reflexivity|]. cbn. auto.
    + exists 0%nat. eexists. split; [lia|]. split; [reflexivity|]. cbn. eauto.
    + exists 3%nat. eexists. split; [lia|]. split; [reflexivity|]. cbn. auto.
    + exists 2%nat. eexists. split; [lia|]. split; [reflexivity|]. cbn. auto.
  - destruct w; try contradiction C; try (exfalso; apply G; first [left; reflexivity | right; reflexivity]).
    + destruct (pe <=? now - now) eqn:E.
      * exists 5%nat. eexists. split; [lia|]. cbn. rewrite E. cbn. split; [reflexivity|]. cbn. auto.
      * exists 3%nat. eexists. split; [lia|]. cbn. rewrite E. split; [reflexivity|]. cbn. auto.
    + destruct (pe <=? now - la) eqn:E.
      * exists 4%nat. eexists. split; [lia|]. cbn. rewrite E. cbn. split; [reflexivity|]. cbn. auto.
      * exists 2%nat. eexists. split; [lia|]. cbn. rewrite E. split; [reflexivity|]. cbn. auto.
    + destruct (pe <=? now - la) eqn:E.
      * exists 3%nat. eexists. split; [lia|]. cbn. rewrite E. cbn. split; [reflexivity|]. cbn. auto.
      * exists 1%nat. eexists. split; [lia|]. cbn. rewrite E. split; [reflexivity|]. cbn. auto.
    + exists 2%nat. eexists. split; [lia|]. split; [reflexivity|]. cbn. auto.
    + exists 1%nat. eexists. split; [lia|]. split; [reflexivity|]. cbn. auto.
    + exists 0%nat. eexists. split; [lia|]. split; [reflexivity|]. cbn. auto.
Qed.
