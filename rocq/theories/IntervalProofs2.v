(** Timing and progress lemmas for interval_event. *)
From Verif Require Export IntervalProofs.

(** ** Timing *)
Definition tinv (s : st) : Prop :=
  (worker s = WStart -> start_of (log s) = None /\ call_times (log s) = [] /\ elapsed_periods (log s) = 0) /\
  (worker s <> WStart -> exists t0, start_of (log s) = Some t0 /\ last s = t0 + elapsed_periods (log s)) /\
  paired (timeline (log s)) (match worker s with WFire t => Some t | _ => None end).

Lemma tinv_keep s s' : tinv s -> log s' = log s -> last s' = last s ->
  (worker s' = WStart <-> worker s = WStart) ->
  (match worker s' with WFire t => Some t | _ => None end = match worker s with WFire t => Some t | _ => None end) -> tinv s'.
Proof.
  intros (A & B & C) EL ET EW EF. unfold tinv. rewrite EL, ET, EF. split; [|split; [|exact C]].
  - intros W. apply A, EW, W.
  - intros W. apply B. intros W'. apply W, EW, W'.
Qed.
Lemma tinv_note s e : tinv s -> (match e with EClear _ | EReturn _ | EDestroyed | EPeriod _ => True | _ => False end) -> tinv (emit s e).
Proof. intros (A & B & C) E. unfold tinv. cbn [emit worker log last]. destruct e; try contradiction; cbn; auto. Qed.

Lemma step_tinv s l s' : tinv s -> step s l = Ok (Some s') -> tinv s'.
Proof.
  intros T E. destruct l as [|now who| |i d|i|i|p]; cbn [step] in E.
  - destruct (initd s); [discriminate|]. inversion E; subst s'. eapply tinv_keep; [exact T|..]; reflexivity.
  - unfold wstep in E. destruct (worker s) eqn:W;
      try (destruct (alive s); [|discriminate]); try (destruct (initd s); [|discriminate]); cbn [andb] in E.
    + inversion E; subst s'. destruct T as (A & _ & C). destruct (A W) as (A1 & A2 & A3). rewrite W in C.
      unfold tinv. cbn. split; [discriminate|]. split; [|exact C]. intros _. exists now. rewrite A3. split; [reflexivity|lia].
    + inversion E; subst s'. eapply tinv_keep; [exact T|..]; cbn; rewrite ?W; try reflexivity; destruct (flag s); try reflexivity; split; discriminate.
    + inversion E; subst s'. destruct T as (_ & B & C). rewrite W in C. destruct B as (t0 & B1 & B2); [congruence|].
      unfold tinv. cbn. destruct (Z.leb_spec (period s) (now - last s)) as [G|G].
      * split; [discriminate|]. split; [intros _; exists t0; auto|]. constructor. exact C.
      * split; [discriminate|]. split; [intros _; exists t0; auto|]. constructor. exact C.
    + inversion E; subst s'. destruct T as (_ & B & C). rewrite W in C. destruct B as (t0 & B1 & B2); [congruence|].
      unfold tinv. cbn. split; [discriminate|]. split; [intros _; exists t0; split; [exact B1|unfold ms; lia]|]. constructor. exact C.
    + inversion E; subst s'. eapply tinv_keep; [exact T|..]; cbn; rewrite ?W; try reflexivity; split; discriminate.
    + inversion E; subst s'. eapply tinv_keep; [exact T|..]; cbn; rewrite ?W; try reflexivity; split; discriminate.
    + destruct (flag s); [|discriminate]. inversion E; subst s'. eapply tinv_keep; [exact T|..]; cbn; rewrite ?W; try reflexivity; split; discriminate.
    + inversion E; subst s'. eapply tinv_keep; [exact T|..]; cbn; rewrite ?W; try reflexivity; split; discriminate.
    + inversion E; subst s'. eapply tinv_keep; [exact T|..]; cbn; rewrite ?W; try reflexivity; split; discriminate.
    + inversion E; subst s'. eapply tinv_keep; [exact T|..]; cbn; rewrite ?W; try reflexivity; split; discriminate.
    + discriminate.
  - destruct (worker s) eqn:W; try discriminate. destruct (alive s); [|discriminate]. inversion E; subst s'.
    destruct (stopf s); [exact T|]. eapply tinv_keep; [exact T|..]; cbn; rewrite ?W; try reflexivity; split; discriminate.
  - destruct (nth_error (callers s) i) as [[]|]; try discriminate. destruct (initd s); [|discriminate].
    destruct (alive s); [|discriminate]. destruct (stopf s); inversion E; subst s'.
    + apply tinv_note; [|exact I]. destruct d; [|exact T]. apply tinv_note; [|exact I]. eapply tinv_keep; [exact T|..]; reflexivity.
    + eapply tinv_keep; [exact T|..]; reflexivity.
  - unfold cstep in E. destruct (nth_error (callers s) i) as [[]|]; try discriminate; (destruct (alive s); [|discriminate]); inversion E; subst s'.
    + apply tinv_note; [|exact I]. eapply tinv_keep; [exact T|..]; reflexivity.
    + eapply tinv_keep; [exact T|..]; reflexivity.
    + apply tinv_note; [|exact I]. destruct d; [apply tinv_note; [|exact I]|]; eapply tinv_keep; try exact T; reflexivity.
  - destruct (nth_error (callers s) i) as [[]|]; try discriminate. inversion E; subst s'. eapply tinv_keep; [exact T|..]; reflexivity.
  - destruct (initd s); [|discriminate]. destruct (alive s); [|discriminate]. inversion E; subst s'.
    apply tinv_note; [|exact I]. eapply tinv_keep; [exact T|..]; reflexivity.
Qed.
(** The period read is the one last set. *)
Lemma step_force p s l s' : period s = in_force p (log s) -> step s l = Ok (Some s') ->
  period s' = in_force p (log s').
Proof.
  intros P E. destruct l as [|now who| |i d|i|i|q]; cbn [step] in E; unfold wstep, cstep in E;
    repeat match type of E with context [match ?b with _ => _ end] => destruct b end; try discriminate;
    inversion E; subst s'; cbn; auto.
Qed.
Lemma reach_force p n s : reachable p n s -> period s = in_force p (log s).
Proof.
  intros (ls & E). refine (run_ind (fun s => period s = in_force p (log s)) _ ls (init p n) s _ E); [|reflexivity].
  intros. eapply step_force; eassumption.
Qed.
(** And so in every earlier event. *)
Definition used (p : Z) (l : list event) : Prop := forall newer e older, l = newer ++ e :: older ->
  match e with ECheck _ q _ | ECall _ q => q = in_force p older | _ => True end.
Lemma used_cons p e l : used p l -> match e with ECheck _ q _ | ECall _ q => q = in_force p l | _ => True end ->
  used p (e :: l).
Proof.
  intros U H newer x older E. destruct newer as [|y newer]; cbn in E; inversion E; subst; [exact H|].
  exact (U newer x older eq_refl).
Qed.
Lemma step_used p s l s' : period s = in_force p (log s) -> used p (log s) -> step s l = Ok (Some s') -> used p (log s').
Proof.
  intros P U E. destruct l as [|now who| |i d|i|i|q]; cbn [step] in E; unfold wstep, cstep in E;
    repeat match type of E with context [match ?b with _ => _ end] => destruct b end; try discriminate;
    inversion E; subst s'; cbn; auto; repeat (apply used_cons; [|exact Logic.I || exact P]); exact U.
Qed.
Lemma reach_used p n s : reachable p n s -> used p (log s).
Proof.
  intros (ls & E).
  refine (proj2 (run_ind (fun s => period s = in_force p (log s) /\ used p (log s)) _ ls (init p n) s _ E)).
  - intros s0 l s1 (P & U) S1. split; [eapply step_force; eassumption|eapply step_used; eassumption].
  - split; [reflexivity|]. intros [|? ?] ? ? H; discriminate.
Qed.
Lemma reach_tinv p n s : reachable p n s -> tinv s.
Proof.
  intros (ls & E). eapply (run_ind tinv); [intros; eapply step_tinv; eassumption| |exact E].
  unfold tinv. cbn. split; [auto|]. split; [congruence|constructor].
Qed.

(** With a constant period. *)
Definition cinv (p : Z) (s : st) : Prop :=
  period s = p /\ elapsed_periods (log s) = Z.of_nat (length (call_times (log s))) * (p * ms) /\
  (forall t, worker s = WFire t -> p <= t - last s) /\
  (forall n t, nth_error (call_times (log s)) n = Some t -> exists t0, start_of (log s) = Some t0 /\ t0 + Z.of_nat n * (p * ms) + p <= t).
Lemma cinv_keep p s s' : cinv p s -> period s' = period s -> log s' = log s -> last s' = last s ->
  (forall t, worker s' = WFire t -> worker s = WFire t) -> cinv p s'.
Proof.
  intros (A & B & C & D) EP EL ET EW. unfold cinv. rewrite EP, EL, ET. split; [exact A|]. split; [exact B|]. split; [|exact D].
  intros t H. apply C, EW, H.
Qed.
Lemma cinv_note p s e : cinv p s -> (match e with EClear _ | EReturn _ | EDestroyed | EPeriod _ => True | _ => False end) -> cinv p (emit s e).
Proof. intros C E. unfold cinv in *. cbn [emit worker log last period]. destruct e; try contradiction; cbn; exact C. Qed.

Lemma step_cinv p s l s' : tinv s -> cinv p s -> changes_period l = false -> step s l = Ok (Some s') -> cinv p s'.
Proof.
  intros T C NP E. destruct l as [|now who| |i d|i|i|q]; cbn [step] in E; try discriminate NP.
  - destruct (initd s); [discriminate|]. inversion E; subst s'. eapply cinv_keep; [exact C|..]; try reflexivity; cbn; auto.
  - unfold wstep in E. destruct (worker s) eqn:W;
      try (destruct (alive s); [|discriminate]); try (destruct (initd s); [|discriminate]); cbn [andb] in E.
    + inversion E; subst s'. destruct T as (A & _). destruct (A W) as (A1 & A2 & A3). destruct C as (C1 & C2 & C3 & C4).
      unfold cinv. cbn. rewrite A2 in *. split; [exact C1|]. split; [exact C2|]. split; [discriminate|]. intros [|n] t; discriminate.
    + inversion E; subst s'. eapply cinv_keep; [exact C|..]; cbn; try reflexivity. destruct (flag s); discriminate.
    + inversion E; subst s'. destruct C as (C1 & C2 & C3 & C4). unfold cinv. cbn. split; [exact C1|]. split; [exact C2|]. split; [|exact C4].
      intros t. destruct (Z.leb_spec (period s) (now - last s)) as [G|G]; [|discriminate]. intros [= <-]. lia.
    + inversion E; subst s'. destruct C as (C1 & C2 & C3 & C4). destruct T as (_ & TB & _). destruct TB as (t0 & T1 & T2); [congruence|].
      specialize (C3 t W). unfold cinv. cbn. rewrite app_length. cbn [length]. split; [exact C1|]. split; [unfold ms in *; lia|].
      split; [discriminate|]. intros n u H.
      destruct (Nat.lt_ge_cases n (length (call_times (log s)))) as [L|L].
      * rewrite nth_error_app1 in H by exact L. apply C4, H.
      * rewrite nth_error_app2 in H by exact L. destruct (n - length (call_times (log s)))%nat as [|m] eqn:K; [|destruct m; discriminate].
        cbn in H. inversion H; subst u. exists t0. split; [exact T1|]. replace n with (length (call_times (log s))) by lia. lia.
    + inversion E; subst s'. eapply cinv_keep; [exact C|..]; cbn; try reflexivity; discriminate.
    + inversion E; subst s'. eapply cinv_keep; [exact C|..]; cbn; try reflexivity; discriminate.
    + destruct (flag s); [|discriminate]. inversion E; subst s'. eapply cinv_keep; [exact C|..]; cbn; try reflexivity; discriminate.
    + inversion E; subst s'. eapply cinv_keep; [exact C|..]; cbn; try reflexivity; discriminate.
    + inversion E; subst s'. eapply cinv_keep; [exact C|..]; cbn; try reflexivity; discriminate.
    + inversion E; subst s'. eapply cinv_keep; [exact C|..]; cbn; try reflexivity; discriminate.
    + discriminate.
  - destruct (worker s) eqn:W; try discriminate. destruct (alive s); [|discriminate]. inversion E; subst s'.
    destruct (stopf s); [exact C|]. eapply cinv_keep; [exact C|..]; cbn; try reflexivity; discriminate.
  - destruct (nth_error (callers s) i) as [[]|]; try discriminate. destruct (initd s); [|discriminate].
    destruct (alive s); [|discriminate]. destruct (stopf s); inversion E; subst s'.
    + apply cinv_note; [|exact I]. destruct d; [|exact C]. apply cinv_note; [|exact I]. eapply cinv_keep; [exact C|..]; try reflexivity; cbn; auto.
    + eapply cinv_keep; [exact C|..]; try reflexivity; cbn; auto.
  - unfold cstep in E. destruct (nth_error (callers s) i) as [[]|]; try discriminate; (destruct (alive s); [|discriminate]); inversion E; subst s'.
    + apply cinv_note; [|exact I]. eapply cinv_keep; [exact C|..]; try reflexivity; cbn; auto.
    + eapply cinv_keep; [exact C|..]; try reflexivity; cbn; auto.
    + apply cinv_note; [|exact I]. destruct d; [apply cinv_note; [|exact I]|]; eapply cinv_keep; try exact C; try reflexivity; cbn; auto.
  - destruct (nth_error (callers s) i) as [[]|]; try discriminate. inversion E; subst s'. eapply cinv_keep; [exact C|..]; try reflexivity; cbn; auto.
Qed.
Lemma run_cinv p n ls s : forallb (fun l => negb (changes_period l)) ls = true -> run (init p n) ls = Ok s -> cinv p s.
Proof.
  assert (G : forall ls s0, forallb (fun l => negb (changes_period l)) ls = true -> tinv s0 -> cinv p s0 -> run s0 ls = Ok s -> cinv p s).
  { clear ls. induction ls as [|l ls IH]; intros s0 F T C E; cbn [run forallb] in *; [inversion E; subst; exact C|].
    apply andb_prop in F. destruct F as (F1 & F2). destruct (step s0 l) as [[s1|]| |] eqn:ES; try discriminate; [|apply (IH s0); assumption].
    apply (IH s1); try assumption; [eapply step_tinv; eassumption|]. eapply step_cinv; try eassumption. destruct (changes_period l); [discriminate|reflexivity]. }
  intros F E. apply (G ls (init p n)); try assumption.
  - apply (reach_tinv p n). exists []. reflexivity.
  - unfold cinv. cbn. split; [reflexivity|]. split; [reflexivity|]. split; [discriminate|]. intros [|k] t; discriminate.
Qed.

(** ** Progress with a single thread calling stop *)
Definition no_cb (w : wpc) : Prop := match w with WCbClear | WCbWait | WCbFin => False | _ => True end.
Definition linv (s : st) : Prop :=
  no_cb (worker s) /\
  exists c, callers s = [c] /\
  match c with
  | CIdle => (stopf s = true -> gone (worker s)) /\ (stopf s = false -> ~ gone (worker s) /\ flag s = true)
  | CClear _ => ~ gone (worker s) /\ stopf s = false /\ flag s = true /\ alive s = true /\ initd s = true
  | CWait _ => stopf s = false /\ alive s = true /\ initd s = true /\ ((~ gone (worker s) /\ flag s = false) \/ (gone (worker s) /\ flag s = true))
  | CBlocked _ => stopf s = false /\ alive s = true /\ initd s = true /\ ((~ gone (worker s) /\ flag s = false) \/ (worker s = WNotify /\ flag s = true))
  | CFin _ => stopf s = false /\ alive s = true /\ initd s = true /\ gone (worker s) /\ flag s = true
  end.
Lemma linv_init p : linv (init p 1).
Proof. split; [exact I|]. exists CIdle. cbn. split; [reflexivity|]. split; [discriminate|]. intros _. split; [intros [H|H]; discriminate|reflexivity]. Qed.

(** A worker step that stays away from the end and leaves the flag alone. *)
Lemma linv_move s s' : linv s -> ~ gone (worker s) -> ~ gone (worker s') -> no_cb (worker s') ->
  callers s' = callers s -> stopf s' = stopf s -> flag s' = flag s -> alive s' = alive s -> initd s' = initd s -> linv s'.
Proof.
  intros (_ & c & EC & M) G G' NC E1 E2 E3 E4 E5. split; [exact NC|]. exists c. rewrite E1. split; [exact EC|].
  rewrite E2, E3, E4, E5. assert (NN : worker s = WNotify -> False) by (intros H; apply G; left; exact H).
  destruct c; intuition.
Qed.

Lemma step_linv s l s' : linv s -> callback_stops l = false -> step s l = Ok (Some s') -> linv s'.
Proof.
  intros L NCB E. destruct L as (NC & c & EC & M). destruct l as [|now who| |i d|i|i|p]; cbn [step] in E; try discriminate NCB.
  - destruct (initd s) eqn:I; [discriminate|]. inversion E; subst s'. split; [exact NC|]. exists c. cbn. split; [exact EC|].
    destruct c; intuition congruence.
  - unfold wstep in E. destruct (worker s) eqn:W; try contradiction NC;
      try (destruct (alive s) eqn:A; [|discriminate]); try (destruct (initd s) eqn:I; [|discriminate]); cbn [andb] in E; try discriminate.
    + inversion E; subst s'. eapply (linv_move s); [split; [rewrite W; exact NC|exists c; split; [exact EC|rewrite W; exact M]]|..]; cbn; rewrite ?W; try reflexivity; try exact Logic.I; try (intros [?H|?H]; discriminate).
    + destruct (flag s) eqn:F; inversion E; subst s'.
      * split; [exact Logic.I|]. exists c. cbn. split; [exact EC|].
        destruct c; cbn in *; unfold gone in *; intuition (try discriminate; try congruence).
      * split; [exact Logic.I|]. exists c. cbn. split; [exact EC|].
        destruct c; cbn in *; unfold gone in *; intuition (try discriminate; try congruence).
    + inversion E; subst s'. eapply (linv_move s); [split; [rewrite W; exact NC|exists c; split; [exact EC|rewrite W, A, I; exact M]]|..]; cbn; rewrite ?W; try reflexivity; destruct (_ <=? _); try exact Logic.I; try (intros [?H|?H]; discriminate).
    + inversion E; subst s'. eapply (linv_move s); [split; [rewrite W; exact NC|exists c; split; [exact EC|rewrite W, A; exact M]]|..]; cbn; rewrite ?W; try reflexivity; try exact Logic.I; try (intros [?H|?H]; discriminate).
    + inversion E; subst s'. eapply (linv_move s); [split; [rewrite W; exact NC|exists c; split; [exact EC|rewrite W; exact M]]|..]; cbn; rewrite ?W; try reflexivity; try exact Logic.I; try (intros [?H|?H]; discriminate).
    + inversion E; subst s'. eapply (linv_move s); [split; [rewrite W; exact NC|exists c; split; [exact EC|rewrite W, A, I; exact M]]|..]; cbn; rewrite ?W; try reflexivity; try exact Logic.I; try (intros [?H|?H]; discriminate).
    + inversion E; subst s'. split; [exact Logic.I|]. cbn. rewrite EC.
      destruct c as [|d|d|d|d].
      * exists CIdle. split; [destruct who as [|[|]]; reflexivity|]. unfold gone in *. intuition (try discriminate; try congruence).
      * exfalso. apply (proj1 M). left. reflexivity.
      * exists (CWait d). split; [destruct who as [|[|]]; reflexivity|]. unfold gone in *. intuition (try discriminate; try congruence).
      * exists (CWait d). split; [destruct who as [|[|]]; reflexivity|]. unfold gone in *. intuition (try discriminate; try congruence).
      * exists (CFin d). split; [destruct who as [|[|]]; reflexivity|]. unfold gone in *. intuition (try discriminate; try congruence).
  - rewrite EC in E. destruct i as [|[|i]]; cbn in E; try discriminate. destruct c; try discriminate.
    destruct (initd s) eqn:I; [|discriminate]. destruct (alive s) eqn:A; [|discriminate]. destruct (stopf s) eqn:S; inversion E; subst s'.
    + destruct d; split; try exact NC; exists CIdle; cbn; (split; [exact EC|]); rewrite ?S; intuition (try discriminate; try congruence).
    + split; [exact NC|]. exists (CClear d). cbn. rewrite EC. split; [reflexivity|]. intuition.
  - unfold cstep in E. rewrite EC in E. destruct i as [|[|i]]; cbn in E; try discriminate. destruct c as [|d|d|d|d]; try discriminate;
      (destruct (alive s) eqn:A; [|discriminate]); inversion E; subst s'.
    + split; [exact NC|]. exists (CWait d). cbn. rewrite EC. split; [reflexivity|]. intuition.
    + split; [exact NC|]. destruct (flag s) eqn:F; [exists (CFin d)|exists (CBlocked d)]; cbn; rewrite EC; (split; [reflexivity|]); rewrite ?F; intuition (try discriminate; try congruence).
    + destruct d; (split; [exact NC|]); exists CIdle; cbn; rewrite EC; (split; [reflexivity|]); intuition (try discriminate; try congruence).
  - rewrite EC in E. destruct i as [|[|i]]; cbn in E; try discriminate. destruct c; try discriminate. inversion E; subst s'.
    split; [exact NC|]. exists (CWait d). cbn. rewrite EC. split; [reflexivity|]. unfold gone. intuition.
  - destruct (initd s) eqn:I; [|discriminate]. destruct (alive s) eqn:A; [|discriminate]. inversion E; subst s'. split; [exact NC|].
    exists c. cbn. split; [exact EC|]. destruct c; intuition (try discriminate; try congruence).
Qed.
Lemma run_linv p ls s : forallb (fun l => negb (callback_stops l)) ls = true -> run (init p 1) ls = Ok s -> linv s.
Proof.
  assert (G : forall ls s0, forallb (fun l => negb (callback_stops l)) ls = true -> linv s0 -> run s0 ls = Ok s -> linv s).
  { clear ls. induction ls as [|l ls IH]; intros s0 F C E; cbn [run forallb] in *; [inversion E; subst; exact C|].
    apply andb_prop in F. destruct F as (F1 & F2). destruct (step s0 l) as [[s1|]| |] eqn:ES; try discriminate; [|apply (IH s0); assumption].
    apply (IH s1); try assumption. eapply step_linv; try eassumption. destruct (callback_stops l); [discriminate|reflexivity]. }
  intros F E. apply (G ls (init p 1)); try assumption. apply linv_init.
Qed.

Definition wrank (w : wpc) : nat :=
  match w with
  | WCheck => 6 | WFire _ => 5 | WCall => 4 | WStart | WPause => 3 | WTest => 2 | WNotify => 1 | _ => 0
  end.
Definition crank (s : st) : nat :=
  match callers s with
  | [CWait _] => if flag s then 2 else 4
  | [CBlocked _] => 3
  | [CFin _] => 1
  | _ => 0
  end.
Definition rank (s : st) : nat := wrank (worker s) + crank s.

(** While the single thread is past the clear: something can move, moving lowers the rank, and no
    step is undefined. *)
Lemma rank_progress s : linv s -> in_stop s 0 ->
  (enabled s (LCaller 0) \/ forall now who, enabled s (LWorker now who)) /\
  (forall l, works_for 0 l = true -> step s l <> UB /\
     forall s', step s l = Ok (Some s') -> (rank s' < rank s)%nat /\ (in_stop s' 0 \/ hd_error (log s') = Some (EReturn 0))).
Proof.
  intros (NC & c & EC & M) IS. destruct IS as (d & IS). rewrite EC in IS. cbn in IS.
  assert (AI : alive s = true /\ initd s = true) by (destruct c; intuition (try discriminate; try congruence)).
  destruct AI as (A & I).
  assert (CS : c = CWait d \/ c = CBlocked d \/ c = CFin d) by (destruct IS as [H|[H|H]]; inversion H; auto).
  split.
  - destruct CS as [->|[->| ->]].
    + left. unfold enabled, step, cstep. rewrite EC. cbn. rewrite A. eexists; reflexivity.
    + right. intros now who. unfold enabled, step, wstep.
      destruct (worker s); try contradiction; rewrite ?A, ?I; cbn [andb]; try (eexists; reflexivity).
      exfalso. destruct M as (_ & _ & _ & [(H & _)|(H & _)]); [apply H; right; reflexivity|discriminate].
    + left. unfold enabled, step, cstep. rewrite EC. cbn. rewrite A. eexists; reflexivity.
  - intros l WF. destruct l as [|now who| |i e|i|i|q]; try discriminate WF.
    + cbn [step]. unfold wstep. rewrite A, I. cbn [andb]. split.
      { destruct (worker s); try discriminate. destruct (flag s); discriminate. }
      intros s' E.
      assert (KEEP : forall s1, callers s1 = callers s -> in_stop s1 0).
      { intros s1 E1. exists d. rewrite E1, EC. cbn. destruct CS as [->|[->| ->]]; auto. }
      assert (RK : forall s1, callers s1 = callers s -> flag s1 = flag s -> (wrank (worker s1) < wrank (worker s))%nat -> (rank s1 < rank s)%nat).
      { intros s1 E1 E2 E3. unfold rank, crank. rewrite E1, E2. lia. }
      destruct (worker s) eqn:W; try contradiction; try discriminate.
      * inversion E; subst s'. split; [|left; apply KEEP; reflexivity]. apply RK; try reflexivity. cbn. rewrite ?W. cbn. lia.
      * inversion E; subst s'. split; [|left; apply KEEP; reflexivity].
        assert (F : flag s = false).
        { destruct CS as [->|[->| ->]]; cbn in M; unfold gone in M; intuition (try discriminate; try congruence). }
        rewrite F. unfold rank, crank. cbn. rewrite ?EC, ?W, ?F. cbn. destruct CS as [->|[->| ->]]; lia.
      * inversion E; subst s'. split; [|left; apply KEEP; reflexivity]. apply RK; try reflexivity. rewrite ?W. cbn. destruct (_ <=? _); cbn; lia.
      * inversion E; subst s'. split; [|left; apply KEEP; reflexivity]. apply RK; try reflexivity. rewrite ?W. cbn. lia.
      * inversion E; subst s'. split; [|left; apply KEEP; reflexivity]. apply RK; try reflexivity. rewrite ?W. cbn. lia.
      * inversion E; subst s'. split; [|left; apply KEEP; reflexivity]. apply RK; try reflexivity. rewrite ?W. cbn. lia.
      * inversion E; subst s'. unfold rank, crank. cbn. rewrite ?EC, ?W. cbn. destruct CS as [->|[->| ->]].
        -- split; [destruct who as [|[|]]; cbn; lia|]. left. exists d. cbn. rewrite ?EC. destruct who as [|[|]]; cbn; auto.
        -- assert (F : flag s = true) by (cbn in M; unfold gone in M; intuition (try discriminate; try congruence)). rewrite F.
           split; [destruct who as [|[|]]; cbn; lia|]. left. exists d. cbn. rewrite ?EC. destruct who as [|[|]]; cbn; auto.
        -- split; [destruct who as [|[|]]; cbn; lia|]. left. exists d. cbn. rewrite ?EC. destruct who as [|[|]]; cbn; auto.
    + cbn in WF. apply Nat.eqb_eq in WF. subst i. cbn [step]. unfold cstep. rewrite ?EC. cbn [nth_error]. rewrite A.
      split; [destruct CS as [->|[->| ->]]; discriminate|]. intros s' E. destruct CS as [->|[->| ->]]; inversion E; subst s'.
      * unfold rank, crank. cbn. rewrite ?EC. cbn. destruct (flag s); (split; [lia|]); left; exists d; cbn; rewrite ?EC; cbn; auto.
      * unfold rank, crank. destruct d; cbn; rewrite ?EC; cbn; (split; [lia|]); right; reflexivity.
Qed.

(** A round in which both the worker and the caller get a turn. *)
Lemma round_weak r : forall s, linv s -> in_stop s 0 -> forallb (works_for 0) r = true ->
  (exists l1 l2 s', r = l1 ++ l2 /\ run s l1 = Ok s' /\ hd_error (log s') = Some (EReturn 0)) \/
  (exists s', run s r = Ok s' /\ linv s' /\ in_stop s' 0 /\ (rank s' + steps_taken s r <= rank s)%nat).
Proof.
  induction r as [|l r IH]; intros s L IS W.
  { right. exists s. cbn. split; [reflexivity|]. split; [exact L|]. split; [exact IS|lia]. }
  cbn [forallb] in W. apply andb_prop in W. destruct W as (W1 & W2).
  destruct (rank_progress s L IS) as (_ & P). destruct (P l W1) as (NU & PS). cbn [steps_taken run].
  destruct (step s l) as [[s1|]| |] eqn:ES; try congruence.
  - destruct (PS s1 eq_refl) as (RD & [IS1|RT]).
    + assert (L1 : linv s1) by (eapply step_linv; [exact L| |exact ES]; destruct l; try discriminate W1; reflexivity).
      destruct (IH s1 L1 IS1 W2) as [(l1 & l2 & s' & E1 & E2 & E3)|(s' & E & L' & IS' & R')].
      * left. exists (l :: l1), l2, s'. cbn [app run]. rewrite ES, E1. auto.
      * right. exists s'. split; [exact E|]. split; [exact L'|]. split; [exact IS'|lia].
    + left. exists [l], r, s1. cbn [run app]. rewrite ES. auto.
  - destruct (IH s L IS W2) as [(l1 & l2 & s' & E1 & E2 & E3)|(s' & E & L' & IS' & R')].
    + left. exists (l :: l1), l2, s'. cbn [app run]. rewrite ES, E1. auto.
    + right. exists s'. auto.
  - exfalso. destruct l; cbn in ES; try discriminate W1; unfold wstep, cstep in ES;
      repeat match type of ES with context [match ?b with _ => _ end] => destruct b end; discriminate.
Qed.
Lemma enabled_steps r : forall s l, In l r -> enabled s l -> (forall l', In l' r -> step s l' <> UB /\ step s l' <> Fuel) -> (0 < steps_taken s r)%nat.
Proof.
  induction r as [|x r IH]; intros s l H (s1 & E) N; [destruct H|]. destruct H as [->|H]; cbn [steps_taken].
  - rewrite E. lia.
  - destruct (N x (or_introl eq_refl)) as (N1 & N2). destruct (step s x) as [[s2|]| |]; try congruence; [lia|].
    apply (IH s l H); [exists s1; exact E|]. intros l' H'. apply N. right. exact H'.
Qed.
Lemma rank_bound s : (rank s <= 10)%nat.
Proof.
  unfold rank, crank. assert (wrank (worker s) <= 6)%nat by (destruct (worker s); cbn; lia).
  destruct (callers s) as [|[] [|]]; destruct (flag s); lia.
Qed.
Lemma step_not_fuel s l : step s l <> Fuel.
Proof.
  intros E. destruct l; cbn in E; unfold wstep, cstep in E;
    repeat match type of E with context [match ?b with _ => _ end] => destruct b end; discriminate.
Qed.
Lemma rounds_return rs : forall s, linv s -> in_stop s 0 -> Forall (fair_round 0) rs -> (rank s <= length rs)%nat ->
  exists l1 l2 s', concat rs = l1 ++ l2 /\ run s l1 = Ok s' /\ hd_error (log s') = Some (EReturn 0).
Proof.
  induction rs as [|r rs IH]; intros s L IS F B.
  - exfalso. destruct (rank_progress s L IS) as ([(s1 & E)|H] & P).
    + destruct (P (LCaller 0) eq_refl) as (_ & Q). destruct (Q s1 E). cbn in B. lia.
    + destruct (H 0 0%nat) as (s1 & E). destruct (P (LWorker 0 0) eq_refl) as (_ & Q). destruct (Q s1 E). cbn in B. lia.
  - inversion F as [|? ? (W & C & now & who & K) F']; subst.
    destruct (round_weak r s L IS W) as [(l1 & l2 & s' & E1 & E2 & E3)|(s' & E & L' & IS' & R')].
    + exists l1, (l2 ++ concat rs), s'. cbn. rewrite E1, <- app_assoc. auto.
    + destruct (rank_progress s L IS) as (EN & P).
      assert (N : forall l', In l' r -> step s l' <> UB /\ step s l' <> Fuel).
      { intros l' H'. rewrite forallb_forall in W. split; [apply (P l' (W l' H'))|apply step_not_fuel]. }
      assert (SP : (0 < steps_taken s r)%nat).
      { destruct EN as [EN|EN]; [apply (enabled_steps r s _ C EN N)|apply (enabled_steps r s _ K (EN now who) N)]. }
      destruct (IH s' L' IS' F') as (l1 & l2 & s2 & E1 & E2 & E3); [cbn in B; lia|].
      exists (r ++ l1), l2, s2. cbn. rewrite E1, <- app_assoc. split; [reflexivity|]. rewrite run_app, E. auto.
Qed.
