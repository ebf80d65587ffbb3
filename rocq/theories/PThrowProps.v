(** Pipelines whose function throws. *)
From Verif Require Import PThrowProofs PipelineProps.
From Verif Require Export PThrowSpec.

Section P.
  Variable B : nat.
  Variable thr : list agent -> nat -> list Z -> Z -> bool.
  Notation trun := (trun B thr).

(** ** C142 *)

(** Nothing is different until the function throws, and nothing happens after. *)
Theorem C142_goes_on past w s w' :
  trun past w s = TRun w' <->
  prun B w s = Ok w' /\
  forall s1 n s2 w1 e v, s = s1 ++ W n :: s2 -> prun B w s1 = Ok w1 -> calling w1 n e v -> thr (past ++ s1) n e v = false.
Proof. apply run_iff. Qed.
Theorem C142_ends past w s w' :
  trun past w s = TDead w' <->
  exists s1 n s2 e v, s = s1 ++ W n :: s2 /\ trun past w s1 = TRun w' /\ calling w' n e v /\ thr (past ++ s1) n e v = true.
Proof. apply dead_iff. Qed.
(** In a program that goes on no call that was left had thrown, in any worker of a stage or pool. *)
Theorem C142_left_normally nq nw progs s w n e v r :
  trun [] (pstart B nq nw progs) s = TRun w -> processed w n = e ++ v :: r -> r <> [] \/ between_calls w n ->
  exists past, thr past n e v = false.
Proof. apply good_items. Qed.
(** A stage ended by an exception: the items before the one that threw were processed in order,
    those behind it never are. *)
Theorem C142_lost progs s w :
  (0 < B)%nat -> (total progs <= B)%nat -> trun [] (stage_start B progs) s = TDead w ->
  exists e v rest past, map snd (pushed w 0) = e ++ v :: rest /\ processed w 0 = e ++ [v] /\ thr past 0%nat e v = true /\
    forall e1 v1 e2, e = e1 ++ v1 :: e2 -> exists past1, thr past1 0%nat e1 v1 = false.
Proof.
  intros BP L R. apply dead_iff in R. destruct R as (s1 & n & s2 & e & v & _ & R & [CW CP] & X).
  assert (I : prun B (stage_start B progs) s1 = Ok w) by (eapply trun_run; exact R).
  assert (n = 0)%nat.
  { destruct (reach_inv B 1 1 progs BP (le_n 1) s1 w I) as (G & _). apply nth_lt in CW. rewrite (g_nw _ _ _ _ G) in CW. lia. }
  subst n. destruct (C43_exactly_once_in_order B progs s1 w BP L I) as ((rest & E) & _). rewrite CP, <- app_assoc in E.
  exists e, v, rest, ([] ++ s1). split; [exact E|]. split; [exact CP|]. split; [exact X|]. intros e1 v1 e2 ->.
  apply (good_items B thr 1 1 progs s1 w 0%nat e1 v1 (e2 ++ [v]) R); [rewrite CP, <- app_assoc; reflexivity|]. left. destruct e2; discriminate.
Qed.
(** An item the function always throws for: the destructor does not return once it was pushed,
    and the program is over as soon as the worker has had its steps. *)
Theorem C142_no_orderly_end progs s w v :
  (0 < B)%nat -> (total progs <= B)%nat -> (forall past e, thr past 0%nat e v = true) ->
  trun [] (stage_start B progs) s = TRun w -> In v (map snd (pushed w 0)) -> ~ all_done w.
Proof.
  intros BP L T R HI D. pose proof (trun_run _ _ _ _ _ _ R) as R0. destruct (C43_exactly_once_in_order B progs s w BP L R0) as (_ & H).
  destruct (H D) as (E & _). rewrite <- E in HI. apply in_split in HI. destruct HI as (e & r & HI).
  destruct (good_items B thr 1 1 progs s w 0%nat e v r R HI) as (past & X).
  - right. unfold between_calls. intros C. apply nth_error_In in C. specialize (D _ C). discriminate.
  - rewrite T in X. discriminate.
Qed.
Theorem C142_dies progs s w s' v :
  (0 < B)%nat -> (total progs <= B)%nat -> (forall past e, thr past 0%nat e v = true) ->
  trun [] (stage_start B progs) s = TRun w -> In v (map snd (pushed w 0)) -> p_closed w = true ->
  (5 * waiting w 0 + 5 <= steps_of 0 s')%nat -> exists w', trun [] (stage_start B progs) (s ++ s') = TDead w'.
Proof.
  intros BP L T R HI C ST. destruct (trun [] (stage_start B progs) (s ++ s')) as [w'|w'|] eqn:E; [exfalso|eauto|exfalso].
  - pose proof (trun_run _ _ _ _ _ _ E) as R'. pose proof (trun_run _ _ _ _ _ _ R) as R0. rewrite prun_app, R0 in R'. cbn [bind] in R'.
    assert (D : all_done w') by (eapply C43_destructor_returns; eassumption).
    apply (C142_no_orderly_end progs (s ++ s') w' v BP L T E); [|exact D].
    destruct (C43_exactly_once_in_order B progs _ _ BP L (trun_run _ _ _ _ _ _ E)) as (_ & H). destruct (H D) as (EP & PM & _).
    rewrite <- EP. apply (Permutation_in v (Permutation_sym PM)).
    apply (pushed_given B progs s w v BP R0 HI).
  - assert (exists w', prun B (stage_start B progs) (s ++ s') = Ok w') as [w' R'] by (apply C43_never_undefined, BP).
    exact (undef_not B thr _ _ _ _ E R').
Qed.
End P.

(** ** Examples *)
(** The function throws for 13 and the first time it is called for 11. *)
Definition C142_thr (past : list agent) (n : nat) (e : list Z) (v : Z) : bool := (v =? 13) || ((v =? 11) && (length e =? 0)%nat).
Definition C142_view (r : tout) : option (bool * list (list Z) * list (list (nat * Z))) :=
  match r with
  | TRun w => Some (true, map q_done (p_queues w), map q_log (p_queues w))
  | TDead w => Some (false, map q_done (p_queues w), map q_log (p_queues w))
  | TUndef => None
  end.
(** Three items of one producer and one of another, the second of them throws; then a program
    without such items, which ends as usual; then with a pool of two queues, where the other
    queue's item is not processed either. *)
Example C142_ex :
  C142_view (trun 4 C142_thr [] (stage_start 4 [[10; 13; 11]; [12]]) (repeat (P 0 0) 9 ++ repeat (P 1 0) 3 ++ [Close] ++ repeat (W 0) 40))
  = Some (false, [[10; 13]], [[(0%nat, 10); (0%nat, 13); (0%nat, 11); (1%nat, 12)]]) /\
  C142_view (trun 4 C142_thr [] (stage_start 4 [[10; 11]; [12]]) (repeat (P 0 0) 6 ++ repeat (P 1 0) 3 ++ [Close] ++ repeat (W 0) 40))
  = Some (true, [[10; 11; 12]], [[(0%nat, 10); (0%nat, 11); (1%nat, 12)]]) /\
  C142_view (trun 4 C142_thr [] (pstart 4 2 2 [[11]; [12]]) (repeat (P 0 0) 3 ++ repeat (P 1 1) 3 ++ repeat (W 0) 9 ++ repeat (W 1) 9))
  = Some (false, [[11]; []], [[(0%nat, 11)]; [(1%nat, 12)]]).
Proof. split; [|split]; vm_compute; reflexivity. Qed.
Example C142_ex_dies : exists w,
  trun 4 C142_thr [] (stage_start 4 [[10; 13; 11]; [12]]) (repeat (P 0 0) 9 ++ repeat (P 1 0) 3 ++ [Close]) = TRun w /\
  In 13 (map snd (pushed w 0)) /\ p_closed w = true /\ (5 * waiting w 0 + 5 <= steps_of 0 (repeat (W 0) 40))%nat /\
  (forall past e, C142_thr past 0%nat e 13 = true) /\ (total [[10; 13; 11]; [12]]%Z <= 4)%nat.
Proof.
  eexists. split; [vm_compute; reflexivity|]. split; [right; left; reflexivity|]. split; [reflexivity|].
  split; [apply Nat.leb_le; vm_compute; reflexivity|]. split; [reflexivity|]. cbn. lia.
Qed.

Print Assumptions C142_goes_on.
Print Assumptions C142_ends.
Print Assumptions C142_left_normally.
Print Assumptions C142_lost.
Print Assumptions C142_no_orderly_end.
Print Assumptions C142_dies.
