(** Properties of the fixed-size observable used by several threads without a lock. *)
From Verif Require Import ObsShareProofs3.
From Verif Require Export ObsShareSpec.

Section P.
  Variable self : addr.
  Variable Max : Z.
  Variable on_data : list (ev Z) -> addr -> Z -> body Z.
  Variable on_disc : list (ev Z) -> addr -> body Z.
  Notation reaches := (reaches self Max on_data on_disc).
  Notation srun := (srun self Max).

(** ** C122: threads that only notify, the observers being registered before *)

(** Nothing is undefined, and each call delivers to every observer once and in order of
    registration, or to none and says so. *)
Theorem C122_whole_or_none w0 progs s :
  reaches w0 -> only_notify progs ->
  exists w, srun (sstart (mem_of w0) progs) s = Ok w /\
    forall l1 t c e l2, s_log w = l1 ++ (t, Ret c e) :: l2 ->
      exists v, c = Notify v /\
        ((e = ok /\ since_ret [] (by_thread t l1) = map (fun o => Data self o v) (members (w_log w0))) \/
         (e = notify_recursion_detected /\ since_ret [] (by_thread t l1) = [])).
Proof.
  intros R O. destruct (reach_repr self Max on_data on_disc w0 R) as (tl & E & L & _). rewrite E.
  destruct (ninv_run self Max (members (w_log w0)) tl progs ltac:(lia) O s _ (ninv_start self (members (w_log w0)) tl progs)) as (w & RW & I).
  exists w. split; [exact RW|]. intros l1 t c e l2 EL. pose proof (n_fine _ _ _ _ _ I _ _ _ EL) as F. cbn in F.
  destruct F as [(-> & v & -> & F)|(-> & (v & ->) & F)]; exists v; (split; [reflexivity|]); [left|right]; (split; [reflexivity|]); [|exact F].
  rewrite F. unfold told. rewrite firstn_all. reflexivity.
Qed.
(** In an unfinished call: to the first so many of them. *)
Theorem C122_in_order w0 progs s w t :
  reaches w0 -> only_notify progs -> srun (sstart (mem_of w0) progs) s = Ok w ->
  exists v k, since_ret [] (by_thread t (s_log w)) = map (fun o => Data self o v) (firstn k (members (w_log w0))) /\
    (k = 0%nat \/ progs t = returns (by_thread t (s_log w)) ++ Notify v :: s_calls (s_thr w t)).
Proof.
  intros R O E. destruct (reach_repr self Max on_data on_disc w0 R) as (tl & EM & L & _). rewrite EM in E.
  destruct (ninv_run self Max (members (w_log w0)) tl progs ltac:(lia) O s _ (ninv_start self (members (w_log w0)) tl progs)) as (w' & RW & I).
  rewrite E in RW. injection RW as <-. destruct (n_thr _ _ _ _ _ I t) as (cur & P & EP).
  destruct P as [|v|v|v|v|v i LT|v]; cbn [app] in EP; try (exists 0, 0%nat; split; [reflexivity|left; reflexivity]); eexists _, _; (split; [reflexivity|right; exact EP]).
Qed.
(** Every call returns after at most six steps more than there are observers, whatever the
    other threads do. *)
Theorem C122_wait_free w0 progs s w t :
  reaches w0 -> only_notify progs -> srun (sstart (mem_of w0) progs) s = Ok w ->
  (length (progs t) * (6 + length (members (w_log w0))) <= count_occ Nat.eq_dec s t)%nat ->
  s_thr w t = STh [] SIdle /\ returns (by_thread t (s_log w)) = progs t.
Proof.
  intros R O E C. destruct (reach_repr self Max on_data on_disc w0 R) as (tl & EM & L & _). rewrite EM in E.
  destruct (ninv_run self Max (members (w_log w0)) tl progs ltac:(lia) O s _ (ninv_start self (members (w_log w0)) tl progs)) as (w' & RW & I).
  rewrite E in RW. injection RW as <-.
  pose proof (need_run self Max (members (w_log w0)) tl progs ltac:(lia) O s _ _ t (ninv_start self (members (w_log w0)) tl progs) E) as D.
  unfold need at 2 in D. cbn [sstart s_thr s_calls s_pc cost] in D.
  destruct (n_thr _ _ _ _ _ I t) as (cur & P & EP). destruct (s_thr w t) as [calls pc]. unfold need in D. cbn [s_calls s_pc] in *.
  destruct P as [|v|v|v|v|v i LT|v]; cbn [cost] in D; try (exfalso; lia).
  destruct calls as [|c calls]; [|cbn [length] in D; exfalso; lia]. split; [reflexivity|]. rewrite EP. cbn. rewrite app_nil_r. reflexivity.
Qed.
(** A call that delivers nothing does so for another thread's sake, whose call is delivering
    then and returns later; so of all calls made together some one delivers. *)
Theorem C122_rejected_for_another w0 progs s w l1 t c l2 :
  reaches w0 -> only_notify progs -> srun (sstart (mem_of w0) progs) s = Ok w -> all_returned w ->
  s_log w = l1 ++ (t, Ret c notify_recursion_detected) :: l2 ->
  exists u v, u <> t /\ In (u, Ret (Notify v) ok) l2.
Proof.
  intros R O E D EL. destruct (reach_repr self Max on_data on_disc w0 R) as (tl & EM & L & _). rewrite EM in E.
  destruct (ninv_run self Max (members (w_log w0)) tl progs ltac:(lia) O s _ (ninv_start self (members (w_log w0)) tl progs)) as (w' & RW & I).
  rewrite E in RW. injection RW as <-. destruct (n_rej _ _ _ _ _ I _ _ _ _ EL) as (u & NU & [H|(v & H)]).
  - rewrite (D u) in H. destruct H.
  - eauto.
Qed.
(** When all calls have returned the observable is as it was: the next call delivers. *)
Theorem C122_as_before w0 progs s w :
  reaches w0 -> only_notify progs -> srun (sstart (mem_of w0) progs) s = Ok w -> all_returned w -> s_mem w = mem_of w0.
Proof.
  intros R O E D. destruct (reach_repr self Max on_data on_disc w0 R) as (tl & EM & L & _). rewrite EM in E |- *.
  destruct (ninv_run self Max (members (w_log w0)) tl progs ltac:(lia) O s _ (ninv_start self (members (w_log w0)) tl progs)) as (w' & RW & I).
  rewrite E in RW. injection RW as <-. pose proof (n_slots _ _ _ _ _ I) as E1. pose proof (n_cnt _ _ _ _ _ I) as E2.
  destruct (s_mem w) as [a n ins] eqn:EW. cbn [m_slots m_cnt] in *. subst. f_equal. destruct ins; [|reflexivity].
  destruct (n_ins _ _ _ _ _ I) as [t H]; [rewrite EW; reflexivity|]. rewrite (D t) in H. destruct H.
Qed.
(** The check for recursion does not keep two threads out: both can deliver at once. *)
Theorem C122_both_deliver_refuted w0 t u a b :
  reaches w0 -> t <> u ->
  exists s w, srun (sstart (mem_of w0) (two t u (Notify a) (Notify b))) s = Ok w /\ all_returned w /\
    forall o, In o (members (w_log w0)) ->
      before (s_log w) (t, Data self o a) (u, Data self o b) /\
      before (s_log w) (u, Data self o b) (t, Ret (Notify a) ok) /\ In (u, Ret (Notify b) ok) (s_log w).
Proof.
  intros R N. destruct (reach_repr self Max on_data on_disc w0 R) as (tl & EM & L & _). rewrite EM.
  destruct (both self Max (members (w_log w0)) tl t u a b N ltac:(lia)) as (s & w & RW & D & EL).
  exists s, w. split; [exact RW|]. split; [exact D|]. intros o HO. rewrite EL. apply in_split in HO. destruct HO as (p & q & ->).
  rewrite ?map_app. cbn [map]. split; [|split].
  - exists (map (pair t) (map (fun o => Data self o a) p)),
      (map (pair t) (map (fun o => Data self o a) q) ++ map (pair u) (map (fun o => Data self o b) p)),
      (map (pair u) (map (fun o => Data self o b) q) ++ [(u, Ret (Notify b) ok)] ++ [(t, Ret (Notify a) ok)]).
    rewrite ?map_app. cbn [map]. repeat (rewrite <- ?app_assoc; cbn [app]). reflexivity.
  - exists (map (pair t) (map (fun o => Data self o a) p ++ Data self o a :: map (fun o => Data self o a) q) ++ map (pair u) (map (fun o => Data self o b) p)),
      (map (pair u) (map (fun o => Data self o b) q) ++ [(u, Ret (Notify b) ok)]), [].
    rewrite ?map_app. cbn [map]. repeat (rewrite <- ?app_assoc; cbn [app]). reflexivity.
  - rewrite !in_app_iff. cbn [In]. tauto.
Qed.

(** ** C123 (violated by the code: no lock): threads that register and remove as well *)

(** A thread whose call nobody interrupts makes it as if it were alone. *)
Theorem C123_alone m c m' es w t rest :
  alone self Max m c = Ok (m', es) -> s_mem w = m -> s_thr w t = STh (c :: rest) SIdle ->
  exists k w', srun w (repeat t k) = Ok w' /\ s_mem w' = m' /\ s_thr w' t = STh rest SIdle /\
    (forall u, u <> t -> s_thr w' u = s_thr w u) /\ s_log w' = s_log w ++ map (pair t) es.
Proof.
  intros A E T. apply steps_alone in A. destruct (run_call self Max _ _ _ _ _ t w rest A E T) as (k & w' & R & [A1 A2 A3 A4]).
  exists k, w'. auto.
Qed.
(** Two registrations, both reported as made: only one is. *)
Theorem C123_lost_add_refuted w0 t u o1 o2 :
  reaches w0 -> t <> u -> (length (members (w_log w0)) < max_observers Max)%nat ->
  ~ In o1 (members (w_log w0)) -> ~ In o2 (members (w_log w0)) -> o1 <> o2 ->
  exists s w, srun (sstart (mem_of w0) (two t u (Add o1) (Add o2))) s = Ok w /\ all_returned w /\
    s_log w = [(t, Ret (Add o1) ok); (u, Ret (Add o2) ok)] /\
    (exists m, alone self Max (s_mem w) (Remove o1) = Ok (m, [Ret (Remove o1) not_found])) /\
    forall v, exists m, alone self Max (s_mem w) (Notify v)
                        = Ok (m, map (fun o => Data self o v) (members (w_log w0) ++ [o2]) ++ [Ret (Notify v) ok]).
Proof.
  intros R N L N1 N2 NE. destruct (reach_repr self Max on_data on_disc w0 R) as (tl & EM & LT & _). rewrite EM.
  destruct tl as [|x tl]; [cbn in LT; lia|].
  destruct (lost_add self Max _ x tl t u o1 o2 N L N1 N2) as (s & w & RW & D & EL & EW).
  exists s, w. split; [exact RW|]. split; [exact D|]. split; [exact EL|]. rewrite EW.
  split; [apply alone_remove_none|intros v; apply alone_notify]; try (rewrite len_snoc; lia).
  intros H. apply in_app_or in H. destruct H as [H|[H|[]]]; [contradiction|congruence].
Qed.
(** Two registrations with room for one: the second writes behind the array. *)
Theorem C123_overflow_refuted w0 t u o1 o2 :
  reaches w0 -> t <> u -> S (length (members (w_log w0))) = max_observers Max ->
  ~ In o1 (members (w_log w0)) -> ~ In o2 (members (w_log w0)) ->
  exists s, srun (sstart (mem_of w0) (two t u (Add o1) (Add o2))) s = UB.
Proof.
  intros R N L N1 N2. destruct (reach_repr self Max on_data on_disc w0 R) as (tl & EM & LT & _). rewrite EM.
  destruct tl as [|x [|y tl]]; cbn [length] in LT; try lia. apply overflow; assumption.
Qed.
(** The last observer removed during a notification: it is called after its removal has been
    reported. *)
Theorem C123_late_call_refuted w0 p o t u v :
  reaches w0 -> t <> u -> members (w_log w0) = p ++ [o] ->
  exists s w, srun (sstart (mem_of w0) (two t u (Notify v) (Remove o))) s = Ok w /\ all_returned w /\
    before (s_log w) (u, Ret (Remove o) ok) (t, Data self o v).
Proof.
  intros R N E. destruct (reach_repr self Max on_data on_disc w0 R) as (tl & EM & LT & ND). rewrite EM, E in *.
  destruct (late_call self Max p o tl t u v N ND ltac:(lia)) as (s & w & RW & D & EL).
  exists s, w. split; [exact RW|]. split; [exact D|]. rewrite EL. exists (map (pair t) (map (fun x => Data self x v) p)), [], [(t, Ret (Notify v) ok)]. reflexivity.
Qed.
(** The first observer removed during a notification: the second, registered all the time,
    is left out and the last is called twice, and the notification reports success. *)
Theorem C123_missed_refuted w0 o1 o2 l t u v :
  reaches w0 -> t <> u -> members (w_log w0) = o1 :: o2 :: l -> l <> [] ->
  exists s w, srun (sstart (mem_of w0) (two t u (Notify v) (Remove o1))) s = Ok w /\ all_returned w /\
    by_thread t (s_log w) = map (fun o => Data self o v) (o1 :: l ++ [last l o2]) ++ [Ret (Notify v) ok] /\
    exists m, alone self Max (s_mem w) (Notify v) = Ok (m, map (fun o => Data self o v) (o2 :: l) ++ [Ret (Notify v) ok]).
Proof.
  intros R N E NE. destruct (reach_repr self Max on_data on_disc w0 R) as (tl & EM & LT & ND). rewrite EM, E in *.
  destruct (missed self Max o1 o2 l tl t u v N ND NE ltac:(lia)) as (s & w & RW & D & EL & EW).
  exists s, w. split; [exact RW|]. split; [exact D|]. split.
  - rewrite EL. change ((t, Data self o1 v) :: (u, Ret (Remove o1) ok) :: ?x)
      with (map (pair t) [Data self o1 v] ++ map (pair u) [Ret (Remove o1) ok] ++ x).
    rewrite !by_thread_app, !by_thread_own, by_thread_other by auto. reflexivity.
  - rewrite EW. apply alone_notify. cbn [length] in *. lia.
Qed.
(** Any call that changes the number of observers races with any other call, and two
    notifications race. *)
Theorem C123_races w0 t u a b :
  reaches w0 -> t <> u ->
  (exists m es, alone self Max (mem_of w0) a = Ok (m, es) /\ m_cnt m <> w_cnt w0) \/
  (exists va vb, a = Notify va /\ b = Notify vb) ->
  exists s w, srun (sstart (mem_of w0) (two t u a b)) s = Ok w /\ data_race w.
Proof.
  intros R N [(m & es & A & C)|(va & vb & -> & ->)].
  - apply (race_count self Max _ a b t u m es N A C).
  - destruct (reach_repr self Max on_data on_disc w0 R) as (tl & EM & LT & _). rewrite EM. apply race_inside; [exact N|lia].
Qed.
End P.

(** ** Examples *)
Definition C122_calls : list (call Z) := [Add 11; Add 12; Remove 11; Add 13; Add 11]%positive.
Definition C122_w0 (Max : Z) : world Z :=
  match run_all 9%positive Max (fun _ _ _ => Return) (fun _ _ => Return) 1 (fresh Max) C122_calls with Ok w => w | _ => fresh Max end.
Example C122_ex_reaches : forall Max, In Max [3; 4; 8] ->
  reaches 9%positive Max (fun _ _ _ => Return) (fun _ _ => Return) (C122_w0 Max) /\
  members (w_log (C122_w0 Max)) = [12; 13; 11]%positive.
Proof.
  intros Max [<-|[<-|[<-|[]]]]; (split; [exists 1%nat, C122_calls|]; vm_compute; reflexivity).
Qed.
Definition C122_progs (t : nat) : list (call Z) := match t with 0%nat => [Notify 5; Notify 6] | 1%nat => [Notify 7] | _ => [] end.
(** Thread 1 is turned away while thread 0 delivers 5. *)
Example C122_ex :
  only_notify C122_progs /\
  match srun 9%positive 3 (sstart (mem_of (C122_w0 3)) C122_progs) (repeat 0%nat 6 ++ repeat 1%nat 9 ++ repeat 0%nat 12) with
  | Ok w => s_log w = [(0%nat, Data 9 12 5%Z); (1%nat, Ret (Notify 7%Z) notify_recursion_detected); (0%nat, Data 9 13 5%Z); (0%nat, Data 9 11 5%Z);
                       (0%nat, Ret (Notify 5%Z) ok); (0%nat, Data 9 12 6%Z); (0%nat, Data 9 13 6%Z); (0%nat, Data 9 11 6%Z);
                       (0%nat, Ret (Notify 6%Z) ok)]%positive /\
            s_thr w 0%nat = STh [] SIdle /\ s_thr w 1%nat = STh [] SIdle
  | _ => False
  end.
Proof.
  split; [|vm_compute; auto]. intros [|[|t]] c H; cbn in H; [| |destruct H].
  - destruct H as [<-|[<-|[]]]; eauto.
  - destruct H as [<-|[]]; eauto.
Qed.
(** Room for one more observer: the hypotheses of the lost registration (room for several is
    as good) and of the write behind the array. *)
Example C123_ex :
  S (length (members (w_log (C122_w0 4)))) = max_observers 4 /\
  ~ In 21%positive (members (w_log (C122_w0 4))) /\ ~ In 22%positive (members (w_log (C122_w0 4))) /\
  match srun 9%positive 8 (sstart (mem_of (C122_w0 8)) (two 0 1 (Add 21%positive) (Add 22%positive))) (repeat 0%nat 7 ++ repeat 1%nat 9 ++ repeat 0%nat 2) with
  | Ok w => s_log w = [(1%nat, Ret (Add 22%positive) ok); (0%nat, Ret (Add 21%positive) ok)] /\ m_cnt (s_mem w) = 4%nat
  | _ => False
  end /\
  srun 9%positive 4 (sstart (mem_of (C122_w0 4)) (two 0 1 (Add 21%positive) (Add 22%positive))) (repeat 0%nat 6 ++ repeat 1%nat 9 ++ repeat 0%nat 3) = UB.
Proof.
  split; [reflexivity|]. split; [vm_compute; intuition discriminate|]. split; [vm_compute; intuition discriminate|]. vm_compute. auto.
Qed.
(** Observer 12 removed while a notification has delivered to it: 13 is left out, 11 called twice. *)
Example C123_ex_missed :
  match srun 9%positive 3 (sstart (mem_of (C122_w0 3)) (two 0 1 (Notify 5) (Remove 12%positive))) (repeat 0%nat 6 ++ repeat 1%nat 20 ++ repeat 0%nat 9) with
  | Ok w => recipients (by_thread 0 (s_log w)) = [12; 11; 11]%positive /\ m_cnt (s_mem w) = 2%nat
  | _ => False
  end.
Proof. vm_compute. auto. Qed.

Print Assumptions C122_whole_or_none.
Print Assumptions C122_in_order.
Print Assumptions C122_wait_free.
Print Assumptions C122_rejected_for_another.
Print Assumptions C122_as_before.
Print Assumptions C122_both_deliver_refuted.
Print Assumptions C123_alone.
Print Assumptions C123_lost_add_refuted.
Print Assumptions C123_overflow_refuted.
Print Assumptions C123_late_call_refuted.
Print Assumptions C123_missed_refuted.
Print Assumptions C123_races.
