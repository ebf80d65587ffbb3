(** C119: several timers (interval_event) whose functions stop one another. *)
From Verif Require Import TimersProofs1 TimersProofs2 TimersProofs3 TimersProofs4.
Local Open Scope nat_scope.

(** Whoever stops a timer, from a calling thread or from inside another timer's function: the
    timer's function is not called after stop() has returned. *)
Theorem C119_no_call_after_stop : forall N M func progs s l1 m l2 t,
  t_log (trun N M func (tstart progs) s) = l1 ++ ECall m :: l2 -> ~ In (EReturn t m) l1.
Proof.
  intros N M func progs s l1 m l2 t E.
  refine (quiet_run N M func s (tstart progs) (ginv_start progs) _ l1 m l2 t E).
  intros k1 n k2 u H. destruct k1; discriminate H.
Qed.
(** ... nor is a call of it still running then: every call of the timer's function has come back
    when stop() returns. *)
Theorem C119_calls_finished : forall N M func progs s l1 t x l2,
  t_log (trun N M func (tstart progs) s) = l1 ++ EReturn t x :: l2 -> called x l1 = ended x l1.
Proof.
  intros N M func progs s l1 t x l2 E.
  exact (f_log _ (finv_run N M func s (tstart progs) (finv_start progs)) l1 t x l2 E).
Qed.
(** Every stop() returns if each timer is stopped by one thread only and the functions stop only
    timers of lower rank.  The number of turns needed is known beforehand; what the rest of the
    schedule does, whether the functions become due, and who is woken does not matter. *)
Theorem C119_stops_return : forall N M func progs owner rank K s t x rs,
  hierarchy N func progs owner rank K ->
  stopping (trun N M func (tstart progs) s) t x ->
  (forall r, In r rs -> fair N t r) ->
  rounds K (rank x) + 4 <= length rs ->
  exists new, t_log (trun N M func (tstart progs) (s ++ concat rs)) = t_log (trun N M func (tstart progs) s) ++ new /\
              In (EReturn t x) new.
Proof. intros N M func progs owner rank K s t x rs HI S0 F L. exact (stop_returns N M func progs owner rank K HI t x rs s S0 F L). Qed.
(** Without ranks they need not: timers whose functions are about to stop one another in a circle
    (a single timer whose function stops itself is one) can be run so that none of these calls
    ever ends and nobody's stop() of these timers ever returns, whatever is run afterwards. *)
Theorem C119_circle_refuted : forall N M func progs s0 circle next,
  let w := trun N M func (tstart progs) s0 in
  NoDup circle -> (forall m, In m circle -> In (next m) circle) ->
  (forall m, In m circle -> about_to_stop N M w (Worker m) (next m)) ->
  exists s, forall s' m, In m circle ->
    (exists new, t_log (trun N M func w (s ++ s')) = t_log w ++ new /\ Forall (silent (Worker m)) new) /\
    forall t, ~ In (EReturn t m) (t_log (trun N M func w (s ++ s'))).
Proof.
  intros N M func progs s0 circle next w ND NX HA.
  assert (G : ginv w) by (apply ginv_run, ginv_start).
  destruct (circle_stuck N M func circle next NX w G ND HA) as (s & _ & H).
  exists s. intros s' m HM. destruct (H s') as [H1 H2]. split; [apply H1, HM|intros t; apply H2, HM].
Qed.
(** Without a single owner they need not either: two threads about to stop the same timer can be
    run so that neither stop() ever returns, whatever is run afterwards. *)
Theorem C119_two_stops_refuted : forall N M func w x t1 t2,
  x < N -> t1 <> t2 -> t_pc (t_timer w x) = TTest -> t_stop (t_timer w x) = false ->
  about_to_stop N M w t1 x -> about_to_stop N M w t2 x ->
  exists s, forall s' t, t = t1 \/ t = t2 ->
    exists new, t_log (trun N M func w (s ++ s')) = t_log w ++ new /\ Forall (silent t) new.
Proof. intros. apply (shared_stuck N M func w x t1 t2); assumption. Qed.

(** Three timers: the program stops timer 0, whose function stops timers 1 and 2. *)
Definition ex_func (log : list tev) (m : nat) : list nat := match m with 0 => [1; 2] | _ => [] end.
Definition ex_progs (k : nat) : list nat := match k with 0 => [0] | _ => [] end.
Definition ex_owner (x : nat) : tid := match x with 0 => Outside 0 | _ => Worker 0 end.
Definition ex_rank (x : nat) : nat := match x with 0 => 1 | _ => 0 end.
Example ex_hierarchy : hierarchy 3 ex_func ex_progs ex_owner ex_rank 2.
Proof.
  split.
  - intros log [|m] x H; [|destruct H]. destruct H as [<-|[<-|[]]]; cbn; repeat split; lia.
  - intros log [|m]; cbn; lia.
  - intros [|k] x H; [|destruct H]. destruct H as [<-|[]]. cbn. split; [lia|reflexivity].
Qed.
Definition ex_turn (m : nat) : tagent := TWork m true (Outside 0).
Definition ex_round : list tagent := [ex_turn 0; ex_turn 1; ex_turn 2; TOut 0].
Definition ex_prefix : list tagent := [ex_turn 0; ex_turn 0; ex_turn 0; TOut 0; ex_turn 0; ex_turn 0].
Definition ev_code (e : tev) : list nat :=
  match e with ECall m => [0; m] | EEnd m => [1; m] | EReturn (Outside k) x => [2; k; x] | EReturn (Worker m) x => [3; m; x] end.
(** The program is in stop() of timer 0 and timer 0's function in stop() of timer 1. *)
Example ex_returns :
  stopping (trun 3 1 ex_func (tstart ex_progs) ex_prefix) (Outside 0) 0 /\
  stopping (trun 3 1 ex_func (tstart ex_progs) ex_prefix) (Worker 0) 1 /\
  (forall r, In r (repeat ex_round 29) -> fair 3 (Outside 0) r) /\ rounds 2 (ex_rank 0) + 4 <= length (repeat ex_round 29) /\
  map ev_code (t_log (trun 3 1 ex_func (tstart ex_progs) (ex_prefix ++ concat (repeat ex_round 29)))) =
    [[0; 0]; [0; 2]; [1; 2]; [3; 0; 1]; [0; 2]; [1; 2]; [3; 0; 2]; [1; 0]; [2; 0; 0]].
Proof.
  split; [left; reflexivity|]. split; [right; left; reflexivity|]. split; [|split].
  - intros r H. apply repeat_spec in H. subst r. split; [|cbn; auto].
    intros m L. exists true, (Outside 0). destruct m as [|[|[|m]]]; [cbn; auto..|lia].
  - cbn. lia.
  - vm_compute. reflexivity.
Qed.
(** Timers 0 and 1 stop each other. *)
Definition ex_each (log : list tev) (m : nat) : list nat := match m with 0 => [1] | _ => [0] end.
Example ex_circle :
  let w := trun 2 0 ex_each (tstart (fun _ => [])) [ex_turn 0; ex_turn 0; ex_turn 0; ex_turn 1; ex_turn 1; ex_turn 1] in
  NoDup [0; 1] /\ (forall m, In m [0; 1] -> In (1 - m) [0; 1]) /\ (forall m, In m [0; 1] -> about_to_stop 2 0 w (Worker m) (1 - m)).
Proof.
  split; [repeat constructor; cbn; intuition lia|]. split.
  - intros m [<-|[<-|[]]]; cbn; auto.
  - intros m [<-|[<-|[]]]; (split; [split; [lia|reflexivity]|]; split; [reflexivity|]; exists []; reflexivity).
Qed.
(** Two calling threads stop timer 0. *)
Example ex_two :
  let w := trun 1 2 (fun _ _ => []) (tstart (fun _ => [0])) [ex_turn 0] in
  t_pc (t_timer w 0) = TTest /\ t_stop (t_timer w 0) = false /\
  about_to_stop 1 2 w (Outside 0) 0 /\ about_to_stop 1 2 w (Outside 1) 0.
Proof.
  split; [reflexivity|]. split; [reflexivity|].
  split; (split; [cbn; lia|]; split; [reflexivity|]; exists []; reflexivity).
Qed.

Print Assumptions C119_no_call_after_stop.
Print Assumptions C119_calls_finished.
Print Assumptions C119_stops_return.
Print Assumptions C119_circle_refuted.
Print Assumptions C119_two_stops_refuted.
