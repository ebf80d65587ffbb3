(** C102: observables with a mutex, shared by threads. *)
From Verif Require Import ObsThreadsProofs.

(** Whatever the threads, their calls and the handlers do, and in whatever order they run:
    what has happened at one observable is a series of whole calls, one after the other,
    each done to the list the previous ones left; and, while a thread is inside a call, a
    first part of that one. *)
Theorem C102_one_at_a_time : forall on_data on_disc progs sched w x,
  trun on_data on_disc (tstart progs) sched = Ok w ->
  exists ops, subs w x = after_all ops /\
    match lock w x with
    | None => about x (hist w) = serial [] ops
    | Some t => exists a done to_come, about x (hist w) = serial [] ops ++ Begin t a :: done /\
                                       calls t a (after_all ops) = done ++ to_come /\ target a = x
    end.
Proof.
  intros on_data on_disc progs sched w x R. pose proof (reach_tinv _ _ _ _ _ R) as T.
  destruct (lock w x) as [t|] eqn:L.
  - destruct (t_lock _ T _ _ L) as (fs & a & i & H1 & H2 & <-). destruct (t_hold _ T t fs a i H1 H2) as (_ & _ & ops & A1 & A2).
    exists ops. split; [exact A2|]. exists a, (firstn i (calls t a (subs w (target a)))), (skipn i (calls t a (subs w (target a)))).
    split; [exact A1|]. split; [rewrite firstn_skipn, A2; reflexivity|reflexivity].
  - destruct (t_free _ T _ L) as (ops & A1 & A2). exists ops. auto.
Qed.

(** And what a thread that has finished has done are its calls in their order, each once,
    with all that the handlers called from them did in between. *)
Theorem C102_every_call_once : forall on_data on_disc progs sched w t p,
  trun on_data on_disc (tstart progs) sched = Ok w -> nth_error progs t = Some p -> nth_error (stacks w) t = Some [] ->
  trace on_data on_disc t p (events_of t (hist w)).
Proof.
  intros on_data on_disc progs sched w t p R P S. destruct (reach_goes_on _ _ _ _ _ R t [] S) as (p' & P1 & P2).
  rewrite P in P1. inversion P1; subst p'. specialize (P2 [] (comp_nil _ _ _ _)). rewrite app_nil_r in P2. exact P2.
Qed.

(** When forwarding only goes downwards in some order of the observables, then at every
    moment all is well defined, and if not all threads have finished one of them can go on. *)
Theorem C102_no_deadlock : forall on_data on_disc rank progs sched,
  downwards rank on_data on_disc ->
  exists w, trun on_data on_disc (tstart progs) sched = Ok w /\
    (forall t, exists r, tstep on_data on_disc w t = Ok r) /\
    (~ finished w -> exists t w', tstep on_data on_disc w t = Ok (Some w')).
Proof.
  intros on_data on_disc rank progs sched D.
  destruct (run_defined on_data on_disc rank D sched (tstart progs)) as (w & R); [apply tinv_start|apply ordered_start|].
  exists w. split; [exact R|]. pose proof (reach_tinv _ _ _ _ _ R) as T. pose proof (reach_ordered _ _ rank D _ _ _ R) as O.
  split; [intros t; apply (step_defined _ _ rank _ _ T O)|apply (somebody_moves _ _ rank _ T O)].
Qed.

(** And if every thread gets a turn again and again, all of them finish. *)
Theorem C102_all_finish : forall on_data on_disc rank progs turns,
  downwards rank on_data on_disc -> fair turns ->
  exists n w, trun on_data on_disc (tstart progs) (first turns n) = Ok w /\ finished w.
Proof.
  intros on_data on_disc rank progs turns D F. destruct (bounded_start rank progs) as (n & B).
  apply (fair_ends on_data on_disc rank D (tstart progs)); [|apply tinv_start|apply ordered_start|exact F].
  apply (ends on_data on_disc rank D n); [apply tinv_start|exact B].
Qed.

(** A handler that calls the observable it is called from - to deregister, say - is undefined. *)
Theorem C102_calling_back_undefined : forall on_data on_disc progs sched w t a r fs b i,
  trun on_data on_disc (tstart progs) sched = Ok w ->
  nth_error (stacks w) t = Some (Body (a :: r) :: fs) -> In (Holding b i) fs -> target b = target a ->
  tstep on_data on_disc w t = UB.
Proof.
  intros on_data on_disc progs sched w t a r fs b i R E I EQ. pose proof (reach_tinv _ _ _ _ _ R) as T.
  assert (H : In (b, i) (hold_of (Body (a :: r) :: fs))).
  { cbn. apply in_flat_map. exists (Holding b i). split; [exact I|left; reflexivity]. }
  destruct (t_hold _ T t _ b i E H) as (L & _). unfold tstep. rewrite E, <- EQ, L, Nat.eqb_refl. reflexivity.
Qed.

(** Without an order: two observables kept in step with each other, each forwarding what
    comes from outside (1) and not what comes from the other (0). *)
Definition two_way (o x : nat) (v : Z) : list act :=
  if (v =? 1)%Z then match x with O => [NotifyObs 1 0] | _ => [NotifyObs 0 0] end else [].
Definition two_users : list (list act) := [[AddObs 0 7; NotifyObs 0 1]; [AddObs 1 8; NotifyObs 1 1]].

(** With one thread at a time this works; with two at once both can wait for each other
    and never go on. *)
Theorem C102_two_way_deadlock_refuted :
  (exists w, trun two_way (fun _ _ => []) (tstart two_users) (repeat 0%nat 20 ++ repeat 1%nat 20) = Ok w /\ finished w) /\
  exists sched w, trun two_way (fun _ _ => []) (tstart two_users) sched = Ok w /\ ~ finished w /\
    forall later, trun two_way (fun _ _ => []) w later = Ok w.
Proof.
  split.
  - eexists. split; [vm_compute; reflexivity|]. intros [|[|[|t]]] s H; cbn in H; inversion H; reflexivity.
  - exists [0; 0; 0; 0; 1; 1; 1; 1]%nat.
    match goal with |- exists w, ?r = Ok w /\ _ =>
      let r' := eval vm_compute in r in match r' with Ok ?w => exists w end end.
    split; [vm_compute; reflexivity|]. split.
    + intros F. specialize (F 0%nat _ eq_refl). discriminate.
    + induction later as [|t later IH]; [reflexivity|]. destruct t as [|[|t]]; cbn [trun]; [exact IH|exact IH|].
      replace (tstep two_way (fun _ _ => []) _ (S (S t))) with (@Ok (option tworld) None); [exact IH|].
      unfold tstep. cbn [stacks nth_error]. destruct t; reflexivity.
Qed.

(** Forwarding from 1 to 0: the order is by number. *)
Definition one_way (o x : nat) (v : Z) : list act := match x with 1%nat => [NotifyObs 0 (v + 1)] | _ => [] end.
Definition three_users : list (list act) :=
  [[AddObs 0 7; AddObs 0 7; NotifyObs 0 5]; [AddObs 1 8; NotifyObs 1 1]; [RemObs 0 7; ClearObs 1]].
Example C102_one_way_example :
  downwards (fun x => x) one_way (fun _ _ => []) /\
  exists w, trun one_way (fun _ _ => []) (tstart three_users) ([0; 0; 1; 1; 1; 1; 1; 0; 2]%nat ++ concat (repeat [2; 1; 0]%nat 20)) = Ok w /\ finished w /\
    about 0 (hist w) =
      [Begin 0 (AddObs 0 7); End 0 (AddObs 0 7) true;
       Begin 1 (NotifyObs 0 2); Deliver 1 0 7 2; End 1 (NotifyObs 0 2) true;
       Begin 0 (AddObs 0 7); End 0 (AddObs 0 7) false;
       Begin 2 (RemObs 0 7); End 2 (RemObs 0 7) true;
       Begin 0 (NotifyObs 0 5); End 0 (NotifyObs 0 5) true].
Proof.
  split; [split|].
  - intros o [|[|x]] v a H; cbn in H; [destruct H|destruct H as [<-|[]]; cbn; lia|destruct H].
  - intros o x a [].
  - eexists. split; [vm_compute; reflexivity|]. split; [intros [|[|[|[|t]]]] s H; cbn in H; inversion H; reflexivity|]. vm_compute. reflexivity.
Qed.
Example C102_calling_back_example :
  exists w, trun (fun o x _ => [RemObs x o]) (fun _ _ => []) (tstart [[AddObs 0 7; NotifyObs 0 5]]) [0; 0; 0; 0]%nat = Ok w /\
    nth_error (stacks w) 0 = Some [Body [RemObs 0 7]; Holding (NotifyObs 0 5) 1; Body []].
Proof. eexists. split; vm_compute; reflexivity. Qed.
Example C102_fair_example : fair (fun n => (n - (Nat.sqrt n) * (Nat.sqrt n))%nat).
Proof.
  intros t n. set (s := (t + n)%nat). exists (s * s + t)%nat. split; [nia|].
  rewrite (Nat.sqrt_unique (s * s + t) s); [lia|]. cbn. nia.
Qed.

Print Assumptions C102_one_at_a_time.
Print Assumptions C102_every_call_once.
Print Assumptions C102_no_deadlock.
Print Assumptions C102_all_finish.
Print Assumptions C102_calling_back_undefined.
Print Assumptions C102_two_way_deadlock_refuted.
