(** Properties of one stage or pool in detail: measurements, choice of the queue, callers of
    time_for_unit() and buffer_utilization() outside. *)
From Verif Require Import PoolProofs3.
From Verif Require Export PoolSpec.

(** ** C116 *)

(** What a call is told: its worker's number and, of all calls this worker has made, the last
    ten, none missing. *)
Theorem C116_calls_told pool size B progs s w l1 n v id t u l2 :
  (0 < B)%nat -> orun pool size B (ostart B progs) s = Ok w -> o_log w = l1 ++ ECall n v id t u :: l2 ->
  id = Z.of_nat n /\ length (measured n l1) = calls n l1 /\
  t = tenth (zsum (map fst (last_ten (measured n l1)))) /\ u = tenth (zsum (map snd (last_ten (measured n l1)))).
Proof.
  intros BP R E. pose proof (right_run pool size B s _ _ (oinv_start B progs) (right_start pool size B progs) R _ _ _ E) as (H1 & H2 & H3 & H4 & H5).
  destruct (calls_start B progs) as [C1 C2]. pose proof (calls_run pool size B s _ _ C1 C2 R _ _ _ E) as C. cbn [calls_right] in C. auto.
Qed.
(** What is measured when a call returns: the items waiting for this worker at that moment. *)
Theorem C116_backlog pool size B progs s w l1 n e b l2 :
  (0 < B)%nat -> orun pool size B (ostart B progs) s = Ok w -> o_log w = l1 ++ EReturn n e b :: l2 ->
  calls n l1 = S (length (measured n l1)) /\ (removed n l1 <= accepted n l1)%nat /\
  - 2 ^ 31 <= b < 2 ^ 31 /\ (2 ^ 32 | Z.of_nat (waiting_in n l1) - b) /\
  (Z.of_nat (waiting_in n l1) < 2 ^ 31 -> b = Z.of_nat (waiting_in n l1)).
Proof.
  intros BP R E. pose proof (right_run pool size B s _ _ (oinv_start B progs) (right_start pool size B progs) R _ _ _ E) as (H1 & H2).
  destruct (calls_start B progs) as [C1 C2]. pose proof (calls_run pool size B s _ _ C1 C2 R _ _ _ E) as C. cbn [calls_right] in C.
  split; [exact C|]. split; [exact H1|]. rewrite H2.
  destruct (to_int_wraps (Z.of_nat (waiting_in n l1))) as [A D].
  split; [exact A|]. split; [exact D|]. intros L. apply to_int_small. lia.
Qed.
(** And the time: what the clock says at that moment, converted to int. *)
Theorem C116_time pool size B w a w' n e b :
  ostep pool size B w a = Ok w' -> o_log w' = o_log w ++ [EReturn n e b] ->
  exists x, a = OWork n x /\ - 2 ^ 31 <= e < 2 ^ 31 /\ (2 ^ 32 | x - e) /\ (0 <= x < 2 ^ 31 -> e = x).
Proof.
  intros E L. destruct (time_of pool size B w a w' n e b E L) as (x & -> & ->).
  destruct (to_int_wraps x) as [A D]. exists x. split; [reflexivity|]. split; [exact A|]. split; [exact D|apply to_int_small].
Qed.
(** A step is undefined only for a ninth worker or where ten measurements do not add up in int. *)
Theorem C116_undefined_only pool size B progs s w a :
  (0 < B)%nat -> orun pool size B (ostart B progs) s = Ok w ->
  (exists w', ostep pool size B w a = Ok w') \/
  (ostep pool size B w a = UB /\
   ((pool = true /\ exists n e, a = OWork n e /\ (8 <= n)%nat /\ (n < size)%nat) \/
    exists n, let seen := last_ten (firstn (added n (o_log w)) (measured n (o_log w))) in
              leaves_int (map fst seen) \/ leaves_int (map snd seen))).
Proof.
  intros BP R. pose proof (orun_inv pool size B s _ _ (oinv_start B progs) R) as I.
  destruct (step_undefined pool size B BP w a I) as [H|(E & [(n & e & -> & L1 & L2)|H])]; [left; exact H| |].
  - right. split; [exact E|]. left. destruct pool; cbn in L1, L2; [|lia]. split; [reflexivity|]. exists n, e. auto.
  - right. split; [exact E|]. right. exact H.
Qed.
(** So never, while no measurement is above 214748364. *)
Theorem C116_never_undefined pool size B progs s w a :
  (0 < B)%nat -> (size <= 8)%nat -> orun pool size B (ostart B progs) s = Ok w ->
  (forall n e b, In (e, b) (measured n (o_log w)) -> Z.abs e <= 214748364 /\ Z.abs b <= 214748364) ->
  exists w', ostep pool size B w a = Ok w'.
Proof.
  intros BP SZ R H. destruct (C116_undefined_only pool size B progs s w a BP R) as [G|(_ & [(-> & n & e & _ & L1 & L2)|(n & G)])]; [exact G|lia|].
  exfalso. cbv zeta in G.
  assert (IN : forall x, In x (last_ten (firstn (added n (o_log w)) (measured n (o_log w)))) -> In x (measured n (o_log w))).
  { intros x HX. unfold last_ten in HX.
    assert (H1 : In x (rev (firstn (added n (o_log w)) (measured n (o_log w)))))
      by (rewrite <- (firstn_skipn 10 (rev _)); apply in_or_app; left; exact HX).
    rewrite <- (firstn_skipn (added n (o_log w)) (measured n (o_log w))). apply in_or_app. left. apply in_rev, H1. }
  assert (LEN : (length (last_ten (firstn (added n (o_log w)) (measured n (o_log w)))) <= 10)%nat) by (unfold last_ten; rewrite firstn_length; lia).
  destruct G as [G|G]; revert G; apply small_sums; try (rewrite map_length; exact LEN); intros x HX; apply in_map_iff in HX;
    destruct HX as ([e b] & <- & HX); apply IN, H in HX; apply HX.
Qed.

(** ** C117 *)

(** One thread pushing into a pool: whatever the workers do while it looks, the queue it takes
    has, when it takes it, at most as many items as any queue had when push was entered. *)
Theorem C117_one_pusher size B progs k0 s w l1 k q v l2 :
  (0 < B)%nat -> one_pusher progs k0 -> Z.of_nat (length (progs k0)) < 2 ^ 64 ->
  orun true size B (ostart B progs) s = Ok w -> o_log w = l1 ++ ETicket k q v :: l2 ->
  k = k0 /\ (q < 8)%nat /\ exists l0 since, l1 = l0 ++ EBegin k :: since /\ same_push k since /\
    ((exists j, (j < 8)%nat /\ Z.of_nat (waiting_in j l0) < INT_MAX) ->
     (forall j, (j < 8)%nat -> (waiting_in q l1 <= waiting_in j l0)%nat) /\ (8 * waiting_in q l1 <= outstanding l0)%nat).
Proof.
  intros BP OP SM R E.
  assert (E0 : every (chosen_well k0) (o_log (ostart B progs))) by (intros x e y EX; destruct x; discriminate EX).
  destruct (chosen_run size B progs k0 SM s _ _ (oinv_start B progs) (cinv_start B progs k0 OP) E0 R _ _ _ E) as (-> & L & l0 & CA & G).
  split; [reflexivity|]. split; [exact L|]. destruct CA as [(l3 & E1 & S1) _]. exists l0, l3. split; [exact E1|]. split; [exact S1|].
  intros J. specialize (G J). split; [exact G|apply every_le, G].
Qed.
(** Many threads pushing into an empty pool can all take the first queue. *)
Theorem C117_together_refuted size B vs :
  exists s w, orun true size B (ostart B (one_each vs)) s = Ok w /\
    (forall a, In a s -> exists k, (k < length vs)%nat /\ a = OPush k true) /\
    accepted 0 (o_log w) = length vs /\ forall j, j <> 0%nat -> accepted j (o_log w) = 0%nat.
Proof.
  destruct (all_look size B vs (length vs) ltac:(lia)) as (s & w & R & A & H).
  destruct (all_tickets size B vs w A (length vs) ltac:(lia)) as (s' & w' & R' & H' & A0 & A1 & _).
  exists (s ++ s'), w'. split; [rewrite (orun_then _ _ _ _ _ _ _ R); exact R'|]. split; [|split; assumption].
  intros a HA. apply in_app_or in HA. destruct HA; auto.
Qed.
(** Two threads pushing into a pool whose last queue alone is empty: one of them can take a
    queue with items waiting, though the last queue is empty before and after it looks. *)
Theorem C117_wrapped_refuted size B progs s w a b va vb ra rb :
  (0 < B)%nat -> (8 <= size)%nat -> orun true size B (ostart B progs) s = Ok w ->
  a <> b -> o_push w a = Pusher (va :: ra) HIdle -> o_push w b = Pusher (vb :: rb) HIdle ->
  o_pc w 7 = OInner -> waiting_in 7 (o_log w) = 0%nat ->
  (forall j, (j < 7)%nat -> (0 < waiting_in j (o_log w))%nat /\ Z.of_nat (waiting_in j (o_log w)) < INT_MAX) ->
  exists s' w' q, orun true size B w s' = Ok w' /\ (q < 7)%nat /\
    o_log w' = o_log w ++ [EBegin a; EBegin b; ETicket b 7 vb; ETake 7; ETicket a q va].
Proof.
  intros BP SP R AB PA PB W7 E7 LO.
  exact (wrapped size B BP SP w (orun_inv true size B s _ _ (oinv_start B progs) R) a b va vb ra rb AB PA PB W7 E7 LO).
Qed.

(** ** C118 *)

(** What a caller outside is told: the last ten measurements that have been added. *)
Theorem C118_reports size B progs s w l1 r time x l2 :
  (0 < B)%nat -> orun false size B (ostart B progs) s = Ok w -> o_log w = l1 ++ EReport r time x :: l2 ->
  x = tenth (zsum (map (if time then fst else snd) (last_ten (firstn (added 0 l1) (measured 0 l1))))).
Proof.
  intros BP R E. exact (right_run false size B s _ _ (oinv_start B progs) (right_start false size B progs) R _ _ _ E).
Qed.
(** Asking while a call runs gives what that call was told. *)
Theorem C118_during_call size B progs s w l1 v id t u l2 r time x l3 :
  (0 < B)%nat -> orun false size B (ostart B progs) s = Ok w ->
  o_log w = l1 ++ ECall 0 v id t u :: l2 ++ EReport r time x :: l3 -> (forall e b, ~ In (EReturn 0 e b) l2) ->
  x = if time then t else u.
Proof.
  intros BP R E NR.
  pose proof (right_run false size B s _ _ (oinv_start B progs) (right_start false size B progs) R _ _ _ E) as (_ & _ & A & T & U).
  assert (E' : o_log w = (l1 ++ ECall 0 v id t u :: l2) ++ EReport r time x :: l3) by (rewrite E, <- app_assoc; reflexivity).
  rewrite (C118_reports _ _ _ _ _ _ _ _ _ _ BP R E').
  assert (ME : measured 0 (l1 ++ ECall 0 v id t u :: l2) = measured 0 l1).
  { rewrite measured_app. cbn [measured flat_map app]. fold (measured 0 l2). replace (measured 0 l2) with (@nil (Z * Z)); [apply app_nil_r|].
    clear - NR. induction l2 as [|e l2 IH]; [reflexivity|]. cbn [measured flat_map]. fold (measured 0 l2).
    rewrite <- IH by (intros x y H; apply (NR x y); right; exact H). destruct e as [| | | |n e b| |]; try reflexivity.
    destruct (Nat.eqb_spec n 0) as [->|]; [|reflexivity]. exfalso. apply (NR e b). left. reflexivity. }
  assert (AD : (length (measured 0 l1) <= added 0 (l1 ++ ECall 0 v id t u :: l2))%nat).
  { rewrite <- A. unfold added. rewrite count_app. lia. }
  rewrite ME, firstn_all2 by exact AD. destruct time; congruence.
Qed.
(** Asking at any other time races with the worker: a call that returns then adds to the
    statistics being read. *)
Theorem C118_outside_race_refuted size B progs s w r time e :
  orun false size B (ostart B progs) s = Ok w -> o_pc w 0 = OCall -> o_ask w r = None ->
  exists w', orun false size B w [OWork 0 e; OAsk r time] = Ok w' /\ stat_race w'.
Proof.
  intros _ EP EA. cbn [orun ostep oworkers oqueues Nat.ltb Nat.leb]. unfold owork_step. rewrite EP. cbv zeta.
  cbn [bind onote oput_pc o_ask]. rewrite EA. cbn [bind]. eexists. split; [reflexivity|]. split.
  - eexists. reflexivity.
  - exists r, time. cbn [oput_ask o_ask]. apply set1_same.
Qed.
(** Asking from inside the function does not. *)
Theorem C118_inside_no_race size B progs s w :
  asks_inside size B (ostart B progs) s -> orun false size B (ostart B progs) s = Ok w -> ~ stat_race w.
Proof.
  intros A R [(m & EM) G].
  assert (J : (exists r t, o_ask (ostart B progs) r = Some t) -> o_pc (ostart B progs) 0 = OCall) by (intros (r & t & E); discriminate E).
  rewrite (inside_run size B s _ _ A J R G) in EM. discriminate.
Qed.

(** ** Examples *)
Definition times {A} (n : nat) (x : A) : list A := repeat x n.
(** A stage with two slots and one thread pushing 10, 20, 30; the calls take 70, 40 and 25
    ms; a caller inside the second call. *)
Definition C116_progs (k : nat) : list Z := match k with O => [10; 20; 30] | _ => [] end.
Definition C116_sched : list oagent :=
  times 8 (OPush 0 true) ++ times 5 (OWork 0 70) ++ times 4 (OPush 0 true) ++ times 6 (OWork 0 70) ++ [OAsk 0 true; OAsk 0 true] ++
  times 6 (OWork 0 40) ++ times 2 (OWork 0 25).
Definition C116_log : list oev :=
  [EBegin 0; ETicket 0 0 10; EBegin 0; ETicket 0 0 20; ETake 0; ECall 0 10 0 0 0; EBegin 0; ETicket 0 0 30;
                       EReturn 0 70 2; EMeasure 0; ETake 0; ECall 0 20 0 7 0; EReport 0 true 7; EReturn 0 40 1; EMeasure 0;
                       ETake 0; ECall 0 30 0 11 0; EReturn 0 25 0; EMeasure 0].
Example C116_ex :
  match orun false 1 2 (ostart 2 C116_progs) C116_sched with
  | Ok w => o_log w = C116_log /\
            (forall n e b, In (e, b) (measured n (o_log w)) -> Z.abs e <= 214748364 /\ Z.abs b <= 214748364) /\
            last_ten (measured 0 (o_log w)) = [(25, 0); (40, 1); (70, 2)]
  | _ => False
  end.
Proof.
  destruct (orun _ _ _ _ _) as [w| |] eqn:E; [|exfalso; revert E; vm_compute; discriminate|exfalso; revert E; vm_compute; discriminate].
  assert (L : match orun false 1 2 (ostart 2 C116_progs) C116_sched with Ok x => o_log x | _ => [] end = C116_log) by (vm_compute; reflexivity).
  rewrite E in L. rewrite L. split; [reflexivity|]. split; [|reflexivity]. intros n e b H. destruct n as [|n]; cbn in H.
  - repeat (destruct H as [H|H]; [injection H as <- <-; lia|]). destruct H.
  - destruct H.
Qed.
(** A call that took 2^31 + 5 ms by the clock is measured as negative, one of 70 as 70. *)
Example C116_ex_time :
  let s := times 12 (OPush 0 true) ++ times 5 (OWork 0 0) in
  match orun false 1 3 (ostart 3 C116_progs) s with
  | Ok w => match ostep false 1 3 w (OWork 0 70), ostep false 1 3 w (OWork 0 (2 ^ 31 + 5)) with
            | Ok w1, Ok w2 => o_log w1 = o_log w ++ [EReturn 0 70 2] /\ o_log w2 = o_log w ++ [EReturn 0 (5 - 2 ^ 31) 2]
            | _, _ => False
            end
  | _ => False
  end.
Proof. vm_compute. auto. Qed.
(** Measurements that do not add up in int: two calls of 2^30 ms each. *)
Example C116_ex_undefined :
  let s := times 12 (OPush 0 true) ++ times 7 (OWork 0 (2 ^ 30)) ++ times 6 (OWork 0 (2 ^ 30)) ++ times 3 (OWork 0 0) in
  match orun false 1 3 (ostart 3 C116_progs) s with Ok w => ostep false 1 3 w (OWork 0 0) = UB | _ => False end.
Proof. vm_compute. reflexivity. Qed.
(** A pool, one thread pushing three items; worker 0 takes the first while the third push
    looks for a queue, after the thread has seen one item in queue 0. *)
Definition C117_sched : list oagent :=
  times 20 (OPush 0 true) ++ times 20 (OPush 0 true) ++ times 3 (OPush 0 true) ++ times 4 (OWork 0 0) ++ times 17 (OPush 0 false).
Example C117_ex_one :
  one_pusher C116_progs 0 /\ Z.of_nat (length (C116_progs 0)) < 2 ^ 64 /\
  match orun true 8 2 (ostart 2 C116_progs) C117_sched with
  | Ok w => o_log w = [EBegin 0; ETicket 0 0 10; EBegin 0; ETicket 0 1 20; EBegin 0; ETake 0; ETicket 0 2 30] /\
            outstanding (o_log w) = 2%nat
  | _ => False
  end.
Proof. split; [intros [|j] N; [congruence|reflexivity]|]. split; [reflexivity|]. vm_compute. split; reflexivity. Qed.
(** Hypotheses of C117_wrapped_refuted: seven items in queues 0 to 6. *)
Definition C117_progs (k : nat) : list Z :=
  match k with O => [1; 2; 3; 4; 5; 6; 7] | 1%nat => [8] | 2%nat => [9] | _ => [] end.
Example C117_ex_wrapped :
  match orun true 8 2 (ostart 2 C117_progs) (times 140 (OPush 0 true) ++ [OWork 7 0]) with
  | Ok w => o_push w 1 = Pusher [8] HIdle /\ o_push w 2 = Pusher [9] HIdle /\ o_pc w 7 = OInner /\ waiting_in 7 (o_log w) = 0%nat /\
            forall j, (j < 7)%nat -> (0 < waiting_in j (o_log w))%nat /\ Z.of_nat (waiting_in j (o_log w)) < INT_MAX
  | _ => False
  end.
Proof.
  destruct (orun _ _ _ _ _) as [w| |] eqn:E; [|exfalso; revert E; vm_compute; discriminate|exfalso; revert E; vm_compute; discriminate].
  assert (L : match orun true 8 2 (ostart 2 C117_progs) (times 140 (OPush 0 true) ++ [OWork 7 0]) with
              | Ok x => o_push x 1 = Pusher [8] HIdle /\ o_push x 2 = Pusher [9] HIdle /\ o_pc x 7 = OInner /\ waiting_in 7 (o_log x) = 0%nat /\
                        map (fun j => waiting_in j (o_log x)) (seq 0 7) = repeat 1%nat 7
              | _ => False end) by (vm_compute; repeat split; reflexivity).
  rewrite E in L. destruct L as (L1 & L2 & L3 & L4 & L5). repeat (split; [assumption|]). intros j H.
  assert (EJ : waiting_in j (o_log w) = 1%nat).
  { apply (repeat_spec 7). rewrite <- L5. apply in_map_iff. exists j. split; [reflexivity|apply in_seq; lia]. }
  rewrite EJ. split; [lia|reflexivity].
Qed.
(** Hypotheses of C118_outside_race_refuted and C118_inside_no_race. *)
Example C118_ex_race :
  match orun false 1 2 (ostart 2 C116_progs) (times 8 (OPush 0 true) ++ times 5 (OWork 0 70)) with
  | Ok w => o_pc w 0 = OCall /\ o_ask w 3 = None
  | _ => False
  end.
Proof. vm_compute. split; reflexivity. Qed.
Example C118_ex_inside : asks_inside 1 2 (ostart 2 C116_progs) C116_sched.
Proof.
  apply insideb_sound; [reflexivity|]. vm_compute. reflexivity.
Qed.

Print Assumptions C116_calls_told.
Print Assumptions C116_backlog.
Print Assumptions C116_time.
Print Assumptions C116_undefined_only.
Print Assumptions C116_never_undefined.
Print Assumptions C117_one_pusher.
Print Assumptions C117_together_refuted.
Print Assumptions C117_wrapped_refuted.
Print Assumptions C118_reports.
Print Assumptions C118_during_call.
Print Assumptions C118_outside_race_refuted.
Print Assumptions C118_inside_no_race.
