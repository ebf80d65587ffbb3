(** Properties C126 and C127: one mediator manager, several threads. *)
From Verif Require Import MedShareProofs5.
Open Scope string_scope. Open Scope list_scope. Open Scope Z_scope.

(** Example ingredients: module classes as in tests/mediator_test.cpp, and two more that also
    receive what they send. *)
Definition g1 := MTy "5data1" 4. Definition g2 := MTy "5data2" 8. Definition g3 := MTy "5data3" 8.
Definition ex_gdesc (a : addr) : mdesc :=
  match a with
  | 1%positive => MDesc g1 [g2]
  | 2%positive => MDesc g2 [g3; g2]
  | _ => MDesc g3 [g2; g1]
  end.
Fixpoint gsum (s : string) : Z :=
  match s with EmptyString => 7 | String c r => Z.of_nat (Ascii.nat_of_ascii c) + 31 * gsum r end.
Definition ex_genc (D : mty) (v : Z) : list Z := le_bytes (ty_size D) v.
Definition ex_gw n calls := match mrun_all gsum ex_genc ex_gdesc n idle_handler idle_hook 5 (mfresh n) calls with MOk w => w | _ => mfresh n end.
Lemma ex_greached n calls : (match mrun_all gsum ex_genc ex_gdesc n idle_handler idle_hook 5 (mfresh n) calls with MOk _ => true | _ => false end) = true ->
  mreaches gsum ex_genc ex_gdesc n idle_handler idle_hook (ex_gw n calls).
Proof.
  intros H. exists 5%nat, calls. unfold ex_gw. destruct (mrun_all _ _ _ _ _ _ _ _ _); [reflexivity|discriminate..].
Qed.
Lemma ex_good reg c D v : sent ex_gdesc c = Some (D, v) -> In D [g1; g2; g3] -> (forall s, sender c = Some s -> In s reg) ->
  good_send gsum ex_genc ex_gdesc reg c D v.
Proof.
  intros A B C. split; [exact A|]. split; [apply le_bytes_length|]. split; [exact C|]. intros D' [a H] E. unfold ex_gdesc in H.
  assert (HD : In D' [g1; g2; g3]) by (destruct a as [[]|[]|]; cbn in H |- *; intuition (subst; auto)).
  cbn in B, HD. destruct B as [<-|[<-|[<-|[]]]]; destruct HD as [<-|[<-|[<-|[]]]]; try reflexivity; vm_compute in E; discriminate E.
Qed.

(** ** C126 *)
(** Whatever the schedule: nothing undefined happens, and each thread sees its messages
    delivered in its order, each to every module that wants it. *)
Theorem C126_delivered : forall hash enc desc n handler hook w0 progs s,
  mreaches hash enc desc n handler hook w0 ->
  (forall t c, In c (progs t) -> exists D v, good_send hash enc desc (registered (m_log w0)) c D v) ->
  exists w, grun hash enc desc (gstart (gmem_of w0) progs) s = Ok w /\
    forall t, exists rest, flat_map (seen hash enc desc (registered (m_log w0))) (progs t) = by_gthread t (g_log w) ++ rest.
Proof.
  intros hash enc desc n handler hook w0 progs s R G. pose proof (mreach_inv desc n hash enc handler hook w0 R) as I.
  destruct (shape desc n w0 I) as (r & ->). set (l := registered (m_log w0)) in *.
  destruct (gsinv_run hash enc desc l r progs G s _ (gsinv_start hash enc desc l r progs)) as (w & RW & [_ IT]).
  exists w. split; [exact RW|]. intros t. destruct (IT t) as (done & cur & es & P & EB & EP).
  destruct (place_prefix hash enc desc l _ _ _ P) as (rest & ER).
  exists (rest ++ flat_map (seen hash enc desc l) (g_calls (g_thr w t))).
  rewrite EP, EB, !flat_map_app, ER, <- !app_assoc. reflexivity.
Qed.
(** A thread is never held up by the others: after a number of its own steps that depends
    only on its calls and the number of modules it is through. *)
Theorem C126_wait_free : forall hash enc desc n handler hook w0 progs s w t,
  mreaches hash enc desc n handler hook w0 ->
  (forall t c, In c (progs t) -> exists D v, good_send hash enc desc (registered (m_log w0)) c D v) ->
  grun hash enc desc (gstart (gmem_of w0) progs) s = Ok w ->
  (length (progs t) * (3 + 4 * length (registered (m_log w0))) <= count_occ Nat.eq_dec s t)%nat ->
  g_thr w t = GTh [] GIdle /\ by_gthread t (g_log w) = flat_map (seen hash enc desc (registered (m_log w0))) (progs t).
Proof.
  intros hash enc desc n handler hook w0 progs s w t R G RW L. pose proof (mreach_inv desc n hash enc handler hook w0 R) as I.
  destruct (shape desc n w0 I) as (r & E). rewrite E in RW. set (l := registered (m_log w0)) in *.
  pose proof (gsinv_start hash enc desc l r progs) as I0.
  destruct (gsinv_run hash enc desc l r progs G s _ I0) as (w' & RW' & IW). rewrite RW in RW'. injection RW' as <-.
  pose proof (gneed_run hash enc desc l r progs G s _ w t I0 RW) as HN.
  apply (gneed_zero hash enc desc l r progs G w t IW). unfold gneed in HN at 2. cbn [gstart g_thr g_calls g_pc gcost] in HN. lia.
Qed.
(** The manager's memory is only read, so there is no data race. *)
Theorem C126_no_race : forall hash enc desc n handler hook w0 progs s w,
  mreaches hash enc desc n handler hook w0 ->
  (forall t c, In c (progs t) -> exists D v, good_send hash enc desc (registered (m_log w0)) c D v) ->
  grun hash enc desc (gstart (gmem_of w0) progs) s = Ok w ->
  g_mem w = gmem_of w0 /\ ~ grace w.
Proof.
  intros hash enc desc n handler hook w0 progs s w R G RW. pose proof (mreach_inv desc n hash enc handler hook w0 R) as I.
  destruct (shape desc n w0 I) as (r & E). rewrite E in *. set (l := registered (m_log w0)) in *.
  pose proof (gsinv_start hash enc desc l r progs) as I0.
  destruct (gsinv_run hash enc desc l r progs G s _ I0) as (w' & RW' & IW). rewrite RW in RW'. injection RW' as <-.
  split; [apply (gs_mem _ _ _ _ _ _ _ IW)|]. intros (t & u & p & b & _ & A & _). exact (no_write hash enc desc l r progs w t p IW A).
Qed.
(** Two messages of two threads, two modules that want both: the modules can see them in
    different orders. *)
Theorem C126_one_order_refuted : forall hash enc desc n handler hook w0 t u c1 c2 D1 D2 v1 v2 p a q b r,
  mreaches hash enc desc n handler hook w0 -> t <> u ->
  good_send hash enc desc (registered (m_log w0)) c1 D1 v1 -> good_send hash enc desc (registered (m_log w0)) c2 D2 v2 ->
  registered (m_log w0) = p ++ a :: q ++ b :: r ->
  wants desc D1 a = true -> wants desc D2 a = true -> wants desc D1 b = true -> wants desc D2 b = true ->
  exists s w, grun hash enc desc (gstart (gmem_of w0) (gtwo t u [c1] [c2])) s = Ok w /\ all_back w /\
    earlier (g_log w) (t, Recv a D1 (enc D1 v1)) (u, Recv a D2 (enc D2 v2)) /\
    earlier (g_log w) (u, Recv b D2 (enc D2 v2)) (t, Recv b D1 (enc D1 v1)).
Proof.
  intros hash enc desc n handler hook w0 t u c1 c2 D1 D2 v1 v2 p a q b r R N G1 G2 EL W1 W2 W3 W4.
  destruct (shape desc n w0 (mreach_inv desc n hash enc handler hook w0 R)) as (tl & ->).
  eapply crossed; eauto.
Qed.
(** The handler of a module can run in two threads at the same time. *)
Theorem C126_one_at_a_time_refuted : forall hash enc desc n handler hook w0 t u c1 c2 D1 D2 v1 v2 a,
  mreaches hash enc desc n handler hook w0 -> t <> u ->
  good_send hash enc desc (registered (m_log w0)) c1 D1 v1 -> good_send hash enc desc (registered (m_log w0)) c2 D2 v2 ->
  In a (registered (m_log w0)) -> wants desc D1 a = true -> wants desc D2 a = true ->
  exists s w, grun hash enc desc (gstart (gmem_of w0) (gtwo t u [c1] [c2])) s = Ok w /\ in_handler w t a /\ in_handler w u a.
Proof.
  intros hash enc desc n handler hook w0 t u c1 c2 D1 D2 v1 v2 a R N G1 G2 HA W1 W2.
  destruct (shape desc n w0 (mreach_inv desc n hash enc handler hook w0 R)) as (tl & ->).
  apply in_split in HA. destruct HA as (p & r & EL). eapply both_in; eauto.
Qed.
Example C126_ex :
  let w0 := ex_gw 5 [Construct 1; Construct 2; Construct 3; Construct 4]%positive in
  let progs := gtwo 0 1 [ModSend 1 5; MgrSend g2 6]%positive [ModSend 2 300]%positive in
  mreaches gsum ex_genc ex_gdesc 5 idle_handler idle_hook w0 /\
  (forall t c, In c (progs t) -> exists D v, good_send gsum ex_genc ex_gdesc (registered (m_log w0)) c D v) /\
  registered (m_log w0) = [1; 2; 3; 4]%positive /\
  map (wants ex_gdesc g1) [3; 4]%positive = [true; true] /\ map (wants ex_gdesc g2) [3; 4]%positive = [true; true] /\
  flat_map (seen gsum ex_genc ex_gdesc (registered (m_log w0))) (progs 1%nat) =
    [Begin (ModSend 2 300); Hook (gsum "5data2") [44; 1; 0; 0; 0; 0; 0; 0]; Recv 1 g2 [44; 1; 0; 0; 0; 0; 0; 0];
     Recv 3 g2 [44; 1; 0; 0; 0; 0; 0; 0]; Recv 4 g2 [44; 1; 0; 0; 0; 0; 0; 0]; End (ModSend 2 300)].
Proof.
  cbv zeta. split; [apply ex_greached; vm_compute; reflexivity|]. split.
  - intros t c H. unfold gtwo in H. destruct (t =? 0)%nat; [|destruct (t =? 1)%nat; [|destruct H]].
    + destruct H as [<-|[<-|[]]].
      * exists g1, 5. apply ex_good; [reflexivity|left; reflexivity|]. intros s E. injection E as <-. vm_compute. auto.
      * exists g2, 6. apply ex_good; [reflexivity|right; left; reflexivity|]. discriminate.
    + destruct H as [<-|[]]. exists g2, 300. apply ex_good; [reflexivity|right; left; reflexivity|]. intros s E. injection E as <-. vm_compute. auto.
  - vm_compute. repeat split.
Qed.

(** ** C127 *)
(** If the threads' calls do not overlap -- each call takes its turn alone, as under a lock --
    the outcome is that of one thread making the calls in the order of the turns. *)
Theorem C127_turns : forall hash enc desc n handler hook w0 order w1,
  mreaches hash enc desc n handler hook w0 ->
  each_returns hash enc desc n w0 (map snd order) w1 ->
  exists ks w, length ks = length order /\
    grun hash enc desc (gstart (gmem_of w0) (fun t => calls_by t order)) (turns (map fst order) ks) = Ok w /\
    all_back w /\ g_mem w = gmem_of w1 /\ m_log w1 = m_log w0 ++ map snd (g_log w).
Proof.
  intros hash enc desc n handler hook w0 order w1 R E.
  destruct (serial hash enc desc n order w0 w1 (gstart (gmem_of w0) (fun t => calls_by t order))
              (mreach_inv desc n hash enc handler hook w0 R) E eq_refl (fun t => eq_refl)) as (ks & w & L & RW & AB & EM & es & EL & EG).
  exists ks, w. repeat (split; [assumption|]). rewrite EL. exact EG.
Qed.
(** Two modules constructed at the same time, room for both: one of them is not registered,
    and no message reaches it. *)
Theorem C127_lost_refuted : forall hash enc desc n handler hook w0 t u a1 a2 c D v,
  mreaches hash enc desc n handler hook w0 -> t <> u -> (length (registered (m_log w0)) + 2 <= n)%nat ->
  good_send hash enc desc (registered (m_log w0) ++ [a1; a2]) c D v ->
  exists s w, grun hash enc desc (gstart (gmem_of w0) (gtwo t u [Construct a1; c] [Construct a2])) s = Ok w /\ all_back w /\
    g_objs (g_mem w) = registered (m_log w0) ++ [a1; a2] /\ g_part (g_mem w) = [] /\
    by_gthread u (g_log w) = [Begin (Construct a2); End (Construct a2)] /\
    by_gthread t (g_log w) = [Begin (Construct a1); End (Construct a1)] ++ seen hash enc desc (registered (m_log w0) ++ [a2]) c.
Proof.
  intros hash enc desc n handler hook w0 t u a1 a2 c D v R N L G.
  destruct (shape_room desc n w0 (mreach_inv desc n hash enc handler hook w0 R)) as (x & tl & ->); [lia|].
  eapply lost; eauto.
Qed.
(** A message while a module that wants it is being constructed, or destroyed, in another
    thread: a pure virtual call. *)
Theorem C127_too_early_refuted : forall hash enc desc n handler hook w0 t u a c D v,
  mreaches hash enc desc n handler hook w0 -> t <> u -> (length (registered (m_log w0)) < n)%nat ->
  good_send hash enc desc (registered (m_log w0)) c D v -> ~ In a (registered (m_log w0)) -> wants desc D a = true ->
  exists s, grun hash enc desc (gstart (gmem_of w0) (gtwo t u [c] [Construct a])) s = UB.
Proof.
  intros hash enc desc n handler hook w0 t u a c D v R N L G HA W.
  destruct (shape_room desc n w0 (mreach_inv desc n hash enc handler hook w0 R) L) as (x & tl & ->).
  eapply too_early; eauto.
Qed.
Theorem C127_too_late_refuted : forall hash enc desc n handler hook w0 t u a c D v,
  mreaches hash enc desc n handler hook w0 -> t <> u ->
  good_send hash enc desc (registered (m_log w0)) c D v -> In a (registered (m_log w0)) -> wants desc D a = true ->
  exists s, grun hash enc desc (gstart (gmem_of w0) (gtwo t u [c] [Destroy a])) s = UB.
Proof.
  intros hash enc desc n handler hook w0 t u a c D v R N G HA W.
  destruct (shape desc n w0 (mreach_inv desc n hash enc handler hook w0 R)) as (tl & ->).
  eapply too_late; eauto.
Qed.
(** A module destroyed while a message is under way that has passed it: the module behind the
    passed ones, registered all the time, is left out; the next message finds it. *)
Theorem C127_left_out_refuted : forall hash enc desc n handler hook w0 t u p1 x p2 y q c D v,
  mreaches hash enc desc n handler hook w0 -> t <> u -> (length (registered (m_log w0)) < n)%nat ->
  registered (m_log w0) = (p1 ++ x :: p2) ++ y :: q -> NoDup (registered (m_log w0)) ->
  good_send hash enc desc (registered (m_log w0)) c D v -> sender c <> Some x ->
  exists s w, grun hash enc desc (gstart (gmem_of w0) (gtwo t u [c; c] [Destroy x])) s = Ok w /\ all_back w /\
    by_gthread t (g_log w) = seen hash enc desc ((p1 ++ x :: p2) ++ q) c ++ seen hash enc desc (p1 ++ p2 ++ y :: q) c.
Proof.
  intros hash enc desc n handler hook w0 t u p1 x p2 y q c D v R N L EL ND G NS.
  destruct (shape_room desc n w0 (mreach_inv desc n hash enc handler hook w0 R) L) as (z & tl & ->).
  eapply left_out; eauto.
Qed.
(** A message while a module is being destroyed: the last module can get it twice. *)
Theorem C127_twice_refuted : forall hash enc desc n handler hook w0 t u p x q y c D v,
  mreaches hash enc desc n handler hook w0 -> t <> u -> (length (registered (m_log w0)) < n)%nat ->
  registered (m_log w0) = p ++ x :: q ++ [y] -> NoDup (registered (m_log w0)) ->
  good_send hash enc desc (registered (m_log w0)) c D v ->
  exists s w, grun hash enc desc (gstart (gmem_of w0) (gtwo t u [c] [Destroy x])) s = Ok w /\ all_back w /\
    by_gthread t (g_log w) = seen hash enc desc (p ++ q ++ [y; y]) c.
Proof.
  intros hash enc desc n handler hook w0 t u p x q y c D v R N L EL ND G.
  destruct (shape_room desc n w0 (mreach_inv desc n hash enc handler hook w0 R) L) as (z & tl & ->).
  rewrite EL in ND. apply NoDup_remove_2 in ND. rewrite in_app_iff in ND. eapply twice; [exact N|exact EL|tauto|tauto|exact G].
Qed.
(** A module that also receives what it sends, the module before it destroyed meanwhile:
    it can get its own message. *)
Theorem C127_own_message_refuted : forall hash enc desc n handler hook w0 t u p x a q v,
  mreaches hash enc desc n handler hook w0 -> t <> u -> (length (registered (m_log w0)) < n)%nat ->
  registered (m_log w0) = p ++ x :: a :: q -> NoDup (registered (m_log w0)) ->
  good_send hash enc desc (registered (m_log w0)) (ModSend a v) (md_sends (desc a)) v ->
  In (md_sends (desc a)) (md_recvs (desc a)) -> md_sends (desc x) <> md_sends (desc a) ->
  exists s w, grun hash enc desc (gstart (gmem_of w0) (gtwo t u [ModSend a v] [Destroy x])) s = Ok w /\ all_back w /\
    In (t, Recv a (md_sends (desc a)) (enc (md_sends (desc a)) v)) (g_log w).
Proof.
  intros hash enc desc n handler hook w0 t u p x a q v R N L EL ND G HR HX.
  destruct (shape_room desc n w0 (mreach_inv desc n hash enc handler hook w0 R) L) as (z & tl & ->).
  eapply own_back; eauto.
Qed.
(** A module constructed or destroyed while any other call is made: a data race. *)
Theorem C127_races_refuted : forall hash enc desc n handler hook w0 t u a b,
  mreaches hash enc desc n handler hook w0 -> t <> u -> (length (registered (m_log w0)) < n)%nat ->
  (exists x, a = Construct x) \/ (exists x, a = Destroy x /\ In x (registered (m_log w0))) ->
  (forall s, sender b = Some s -> In s (registered (m_log w0))) ->
  exists s w, grun hash enc desc (gstart (gmem_of w0) (gtwo t u [a] [b])) s = Ok w /\ grace w.
Proof.
  intros hash enc desc n handler hook w0 t u a b R N L HA HB.
  destruct (shape_room desc n w0 (mreach_inv desc n hash enc handler hook w0 R) L) as (z & tl & ->).
  eapply races; eauto.
Qed.
Example C127_ex :
  let w0 := ex_gw 5 [Construct 1; Construct 2; Construct 3]%positive in
  mreaches gsum ex_genc ex_gdesc 5 idle_handler idle_hook w0 /\
  registered (m_log w0) = [1; 2; 3]%positive /\ NoDup (registered (m_log w0)) /\
  good_send gsum ex_genc ex_gdesc (registered (m_log w0)) (ModSend 2 7) g2 7 /\
  In (md_sends (ex_gdesc 2)) (md_recvs (ex_gdesc 2)) /\ md_sends (ex_gdesc 1) <> md_sends (ex_gdesc 2) /\
  wants ex_gdesc g2 1 = true /\ wants ex_gdesc g2 4 = true /\
  good_send gsum ex_genc ex_gdesc (registered (m_log w0) ++ [4; 5]%positive) (MgrSend g1 9) g1 9.
Proof.
  cbv zeta. split; [apply ex_greached; vm_compute; reflexivity|]. split; [vm_compute; reflexivity|].
  split; [change (NoDup [1; 2; 3]%positive); repeat constructor; cbn; intuition discriminate|].
  split; [apply ex_good; [reflexivity|right; left; reflexivity|intros s E; injection E as <-; vm_compute; auto]|].
  split; [right; left; reflexivity|]. split; [discriminate|]. split; [reflexivity|]. split; [reflexivity|].
  apply ex_good; [reflexivity|left; reflexivity|discriminate].
Qed.
(** Turns: thread 0 constructs a module and sends, thread 1 destroys one in between. *)
Example C127_ex_turns :
  let w0 := ex_gw 5 [Construct 1; Construct 2; Construct 3]%positive in
  exists w1, each_returns gsum ex_genc ex_gdesc 5 w0 (map snd [(0%nat, Construct 4); (1%nat, Destroy 1); (0%nat, ModSend 2 7)]%positive) w1 /\
    registered (m_log w1) = [2; 3; 4]%positive.
Proof.
  cbv zeta. eexists. split.
  - eapply er_call with (f := 3%nat); [vm_compute; reflexivity|]. eapply er_call with (f := 3%nat); [vm_compute; reflexivity|].
    eapply er_call with (f := 3%nat); [vm_compute; reflexivity|]. constructor.
  - vm_compute. reflexivity.
Qed.

Print Assumptions C126_delivered.
Print Assumptions C126_wait_free.
Print Assumptions C126_no_race.
Print Assumptions C126_one_order_refuted.
Print Assumptions C126_one_at_a_time_refuted.
Print Assumptions C127_turns.
Print Assumptions C127_lost_refuted.
Print Assumptions C127_too_early_refuted.
Print Assumptions C127_too_late_refuted.
Print Assumptions C127_left_out_refuted.
Print Assumptions C127_twice_refuted.
Print Assumptions C127_own_message_refuted.
Print Assumptions C127_races_refuted.
