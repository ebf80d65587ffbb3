(** C104, C105: several static observables: copies, lifetimes, callbacks that call other
    observables. *)
From Verif Require Import ObsNetProofs4.

(** * C104 *)

(** What every call answers, in any history with any callbacks.  [p] is what happened before. *)
Theorem C104_answers : forall V Max (on_data : list (nev V) -> addr -> addr -> V -> nbody V) on_disc w p e q,
  nreaches Max on_data on_disc w -> n_log w = p ++ e :: q ->
  match e with
  | NRet (NAdd s o) r => r = add_answer (max_observers (Max s)) (registered p s) o
  | NRet (NRemove s o) r => r = remove_answer (registered p s) o
  | NRet (NNotify s v) r => r = ok /\ In (NEnter s v) p \/ r = notify_recursion_detected /\ shut p s = true
  | NRet (NMake s) r => r = ok /\ ~ In s (living p)
  | NRet (NCopy a s) r => r = ok /\ In a (living p) /\ ~ In s (living p)
  | NRet _ r => r = ok
  | NEnter s v => shut p s = false
  | NData _ o _ | NDisc _ o => exists s, In (NRet (NAdd s o) ok) p
  end.
Proof.
  intros V Max on_data on_disc w p e q R E. exact (n_good _ w (nreach_ninv Max on_data on_disc w R) p e q E).
Qed.

(** A copy notifies the observers of the original, with itself as the source. *)
Theorem C104_copy_delivers : forall V Max (on_data : list (nev V) -> addr -> addr -> V -> nbody V) on_disc w a s v f,
  nreaches Max on_data on_disc w -> In a (living (n_log w)) -> ~ In s (living (n_log w)) -> Max a = Max s ->
  shut (n_log w) a = false -> (forall log o, on_data log s o v = NReturn) ->
  exists w1 w2,
    nrun Max on_data on_disc (S f) w (NCopy a s) = Ok (w1, ok) /\
    nrun Max on_data on_disc (S f) w1 (NNotify s v) = Ok (w2, ok) /\
    n_log w2 = n_log w ++ NRet (NCopy a s) ok :: NEnter s v ::
      map (fun o => NData s o v) (registered (n_log w) a) ++ [NRet (NNotify s v) ok].
Proof.
  intros V Max on_data on_disc w a s v f R A N M SH Q. pose proof (nreach_ninv Max on_data on_disc w R) as I.
  destruct (copy_ok Max on_data on_disc f w a s I A N M) as (w1 & R1 & L1).
  pose proof (nrun_grows Max on_data on_disc _ w _ w1 ok I R1) as (I1 & _).
  destruct (silent_notify Max on_data on_disc f w1 s v I1) as (w2 & R2 & L2).
  - rewrite L1, living_snoc. left. reflexivity.
  - rewrite L1, shut_snoc. cbn [shut_step]. rewrite setm_same. exact SH.
  - exact Q.
  - exists w1, w2. split; [exact R1|]. split; [exact R2|]. rewrite L2, L1, registered_snoc. cbn [reg_step]. rewrite setm_same, <- app_assoc. reflexivity.
Qed.

(** The end of a copy tells all observers of the original that they are disconnected, though
    they are not: the original's next notification reaches every one of them. *)
Theorem C104_copy_destroyed : forall V Max (on_data : list (nev V) -> addr -> addr -> V -> nbody V) on_disc w a s v f,
  nreaches Max on_data on_disc w -> In a (living (n_log w)) -> ~ In s (living (n_log w)) -> Max a = Max s ->
  shut (n_log w) a = false -> (forall log o, on_disc log s o = NReturn) -> (forall log o, on_data log a o v = NReturn) ->
  exists w1 w2 w3,
    nrun Max on_data on_disc (S f) w (NCopy a s) = Ok (w1, ok) /\
    nrun Max on_data on_disc (S f) w1 (NDestroy s) = Ok (w2, ok) /\
    nrun Max on_data on_disc (S f) w2 (NNotify a v) = Ok (w3, ok) /\
    n_log w3 = n_log w ++
      NRet (NCopy a s) ok :: map (fun o => NDisc s o) (registered (n_log w) a) ++
      NRet (NDestroy s) ok :: NEnter a v :: map (fun o => NData a o v) (registered (n_log w) a) ++ [NRet (NNotify a v) ok].
Proof.
  intros V Max on_data on_disc w a s v f R A N M SH QC Q. pose proof (nreach_ninv Max on_data on_disc w R) as I.
  destruct (copy_ok Max on_data on_disc f w a s I A N M) as (w1 & R1 & L1).
  pose proof (nrun_grows Max on_data on_disc _ w _ w1 ok I R1) as (I1 & _).
  destruct (silent_destroy Max on_data on_disc f w1 s I1) as (w2 & R2 & L2); [rewrite L1, living_snoc; left; reflexivity|exact QC|].
  pose proof (nrun_grows Max on_data on_disc _ w1 _ w2 ok I1 R2) as (I2 & _).
  assert (NE : a <> s) by congruence.
  rewrite L1, registered_snoc in L2. cbn [reg_step] in L2. rewrite setm_same in L2.
  assert (RG : registered (n_log w2) a = registered (n_log w) a).
  { rewrite L2, app_assoc, registered_snoc. cbn [reg_step]. rewrite setm_other by exact NE. unfold registered.
    rewrite !fold_left_app. cbn [fold_left reg_step].
    assert (F : forall l m, fold_left reg_step (map (fun o => NDisc (V := V) s o) l) m = m) by (induction l as [|o l IH]; intros m; [reflexivity|apply IH]).
    rewrite F. apply setm_other, NE. }
  assert (SH2 : shut (n_log w2) a = false).
  { rewrite L2, app_assoc, shut_snoc. cbn [shut_step]. unfold shut. rewrite !fold_left_app. cbn [fold_left shut_step].
    assert (F : forall l m, fold_left shut_step (map (fun o => NDisc (V := V) s o) l) m = m) by (induction l as [|o l IH]; intros m; [reflexivity|apply IH]).
    rewrite F, setm_other by exact NE. exact SH. }
  assert (LV2 : In a (living (n_log w2))).
  { rewrite L2, app_assoc, living_snoc. cbn [live_step]. apply (remove_in Max). split; [|exact NE].
    unfold living. rewrite !fold_left_app. cbn [fold_left live_step].
    assert (F : forall l m, fold_left live_step (map (fun o => NDisc (V := V) s o) l) m = m) by (induction l as [|o l IH]; intros m; [reflexivity|apply IH]).
    rewrite F. right. exact A. }
  destruct (silent_notify Max on_data on_disc f w2 a v I2 LV2 SH2 Q) as (w3 & R3 & L3).
  exists w1, w2, w3. repeat (split; [assumption|]). rewrite L3, RG, L2, <- !app_assoc. reflexivity.
Qed.

(** Assignment makes no call at all - the observers [s] had are not told - and afterwards
    [s] notifies the observers of [a]. *)
Theorem C104_assigned : forall V Max (on_data : list (nev V) -> addr -> addr -> V -> nbody V) on_disc w a s v f,
  nreaches Max on_data on_disc w -> In a (living (n_log w)) -> In s (living (n_log w)) -> Max a = Max s ->
  shut (n_log w) a = false -> (forall log o, on_data log s o v = NReturn) ->
  exists w1 w2,
    nrun Max on_data on_disc (S f) w (NAssign a s) = Ok (w1, ok) /\
    nrun Max on_data on_disc (S f) w1 (NNotify s v) = Ok (w2, ok) /\
    n_log w2 = n_log w ++ NRet (NAssign a s) ok :: NEnter s v ::
      map (fun o => NData s o v) (registered (n_log w) a) ++ [NRet (NNotify s v) ok].
Proof.
  intros V Max on_data on_disc w a s v f R A N M SH Q. pose proof (nreach_ninv Max on_data on_disc w R) as I.
  destruct (assign_ok Max on_data on_disc f w a s I A N M) as (w1 & R1 & L1).
  pose proof (nrun_grows Max on_data on_disc _ w _ w1 ok I R1) as (I1 & _).
  destruct (silent_notify Max on_data on_disc f w1 s v I1) as (w2 & R2 & L2).
  - rewrite L1, living_snoc. exact N.
  - rewrite L1, shut_snoc. cbn [shut_step]. rewrite setm_same. exact SH.
  - exact Q.
  - exists w1, w2. split; [exact R1|]. split; [exact R2|]. rewrite L2, L1, registered_snoc. cbn [reg_step]. rewrite setm_same, <- app_assoc. reflexivity.
Qed.

(** A copy taken while the original is in the middle of a notification refuses every
    notification ever after - until it is assigned or ends - and delivers nothing. *)
Theorem C104_copied_while_notifying : forall V Max (on_data : list (nev V) -> addr -> addr -> V -> nbody V) on_disc w p q a s,
  nreaches Max on_data on_disc w -> n_log w = p ++ NRet (NCopy a s) ok :: q ->
  shut p a = true -> (forall v, ~ In (NEnter s v) p) ->
  (forall b, ~ In (NRet (NAssign b s) ok) q) -> ~ In (NRet (NDestroy s) ok) q ->
  (forall v, ~ In (NEnter s v) q) /\
  (forall v r, In (NRet (NNotify s v) r) q -> r = notify_recursion_detected) /\
  (forall v f, exists w', nrun Max on_data on_disc (S f) w (NNotify s v) = Ok (w', notify_recursion_detected) /\
     n_log w' = n_log w ++ [NRet (NNotify s v) notify_recursion_detected]).
Proof.
  intros V Max on_data on_disc w p q a s R E SH NP NA ND. pose proof (nreach_ninv Max on_data on_disc w R) as I.
  pose proof (n_good _ w I) as G. rewrite E in G.
  destruct (stays_shut Max on_data on_disc p q a s G SH NP NA ND) as (S1 & S2 & S3 & S4). rewrite <- E in S1, S2.
  split; [exact S3|]. split; [exact S4|]. intros v f. eexists. split; [apply refused; assumption|reflexivity].
Qed.

(** The code does not guard against a data callback that ends the very observable calling it ... *)
Theorem C104_destroyed_by_callback_refuted : forall V Max (on_data : list (nev V) -> addr -> addr -> V -> nbody V) on_disc w s v o rest f,
  nreaches Max on_data on_disc w -> In s (living (n_log w)) -> shut (n_log w) s = false ->
  registered (n_log w) s = o :: rest -> (forall log, on_data log s o v = NDo (NDestroy s) (fun _ => NReturn)) ->
  (forall log p, on_disc log s p = NReturn) -> nrun Max on_data on_disc (S (S f)) w (NNotify s v) = UB.
Proof.
  intros V Max on_data on_disc w s v o rest f R. apply destroy_in_callback. exact (nreach_ninv Max on_data on_disc w R).
Qed.

(** ... or assigns a new observable to it: with two observers registered a null pointer is called. *)
Theorem C104_assigned_by_callback_refuted : forall V Max (on_data : list (nev V) -> addr -> addr -> V -> nbody V) on_disc w0 w a s v o p rest f,
  nreaches Max on_data on_disc w0 -> nrun Max on_data on_disc 1 w0 (NMake a) = Ok (w, ok) -> a <> s -> Max a = Max s ->
  In s (living (n_log w)) -> shut (n_log w) s = false -> registered (n_log w) s = o :: p :: rest ->
  (forall log, on_data log s o v = NDo (NAssign a s) (fun _ => NReturn)) ->
  nrun Max on_data on_disc (S (S f)) w (NNotify s v) = UB.
Proof.
  intros V Max on_data on_disc w0 w a s v o p rest f R. apply assign_in_callback. exact (nreach_ninv Max on_data on_disc w0 R).
Qed.

(** * C105 *)

(** Callbacks that use existing observables in whatever way - also the one that is calling -
    but neither begin nor end the life of any: no call of the client is ever undefined. *)
Theorem C105_defined : forall V Max (on_data : list (nev V) -> addr -> addr -> V -> nbody V) on_disc w c f,
  nreaches Max on_data on_disc w -> proper Max (living (n_log w)) c ->
  (forall log s o v, living log = living (n_log w) -> plain (living (n_log w)) (on_data log s o v)) ->
  (forall log s o, living log = living (n_log w) -> plain (living (n_log w)) (on_disc log s o)) ->
  nrun Max on_data on_disc f w c <> UB.
Proof.
  intros V Max on_data on_disc w c f R P PD PC. pose proof (nreach_ninv Max on_data on_disc w R) as I.
  pose proof (client_must Max on_data on_disc false f w c PD PC ltac:(discriminate) I P) as D.
  unfold must, fine in D. destruct (nrun Max on_data on_disc f w c); [discriminate|contradiction|discriminate].
Qed.

(** If moreover the disconnect callbacks do not clear, every call ends, however the
    observables forward to each other: the nesting is never deeper than twice their number. *)
Theorem C105_ends : forall V Max (on_data : list (nev V) -> addr -> addr -> V -> nbody V) on_disc w c f,
  nreaches Max on_data on_disc w -> proper Max (living (n_log w)) c ->
  (forall log s o v, living log = living (n_log w) -> plain (living (n_log w)) (on_data log s o v)) ->
  (forall log s o, living log = living (n_log w) -> plain (living (n_log w)) (on_disc log s o)) ->
  (forall log s o, no_nclear (on_disc log s o)) -> (2 * length (living (n_log w)) + 2 <= f)%nat ->
  exists w' e, nrun Max on_data on_disc f w c = Ok (w', e).
Proof.
  intros V Max on_data on_disc w c f R P PD PC NC B. pose proof (nreach_ninv Max on_data on_disc w R) as I.
  pose proof (idle_le Max on_data on_disc (n_log w)) as LE.
  pose proof (client_must Max on_data on_disc true f w c PD PC ltac:(intros _; split; [exact NC|lia]) I P) as D.
  unfold must, done in D. destruct (nrun Max on_data on_disc f w c) as [[w' e]| |]; [exists w', e; reflexivity|contradiction|contradiction].
Qed.

(** With callbacks that leave lifetimes alone, between the client's calls every observable
    accepts notifications, whatever was refused meanwhile. *)
Theorem C105_open_between_calls : forall V Max (on_data : list (nev V) -> addr -> addr -> V -> nbody V) on_disc w s,
  nreaches Max on_data on_disc w ->
  (forall log s o v, no_lives (on_data log s o v)) -> (forall log s o, no_lives (on_disc log s o)) ->
  In s (living (n_log w)) -> shut (n_log w) s = false.
Proof.
  intros V Max on_data on_disc w s R D C. exact (reaches_open Max on_data on_disc D C w R s).
Qed.

(** Observers that pass on what they are told: a notification gets to every observable - and
    every observer of it - that some chain of forwarding leads to, and to no other, cycles or not. *)
Theorem C105_forwarding_reaches_all : forall V Max fwd (on_disc : list (nev V) -> addr -> addr -> nbody V) w s v f,
  nreaches Max (forwards fwd) on_disc w -> (forall log s o, no_lives (on_disc log s o)) ->
  In s (living (n_log w)) ->
  (forall s o t, In o (registered (n_log w) s) -> fwd o = Some t -> In t (living (n_log w))) ->
  (length (living (n_log w)) < f)%nat ->
  exists w' evs, nrun Max (forwards fwd) on_disc f w (NNotify s v) = Ok (w', ok) /\ n_log w' = n_log w ++ evs /\
    (forall t x, In (NEnter t x) evs <-> x = v /\ leads_to fwd (registered (n_log w)) s t) /\
    (forall t o x, In (NData t o x) evs <->
       x = v /\ In o (registered (n_log w) t) /\ leads_to fwd (registered (n_log w)) s t) /\
    (forall t o, ~ In (NDisc t o) evs) /\
    (forall t, registered (n_log w') t = registered (n_log w) t).
Proof.
  intros V Max fwd on_disc w s v f R NC L TL B. pose proof (nreach_ninv Max _ on_disc w R) as I.
  assert (NL : forall log s o v, no_lives (forwards (V := V) fwd log s o v)).
  { intros log z o x. unfold forwards. destruct (fwd o); repeat constructor; discriminate. }
  pose proof (reaches_open Max _ on_disc NL NC w R) as O.
  assert (G : good Max (registered (n_log w)) (living (n_log w)) w (shut (n_log w))) by (split; auto).
  assert (BC : (cnt (living (n_log w)) (shut (n_log w)) < f)%nat).
  { pose proof (idle_le Max (forwards fwd) on_disc (n_log w)) as LE. unfold idle in LE. unfold cnt. lia. }
  destruct (flood Max fwd on_disc (registered (n_log w)) (living (n_log w)) (n_nodup _ w I) TL f w _ s v G L BC)
    as (w' & evs & R1 & G' & L1 & C1 & C2 & C3).
  rewrite (O s L) in R1. exists w', evs. split; [exact R1|]. split; [exact L1|].
  assert (E : forall t x, In (NEnter t x) evs <-> x = v /\ leads_to fwd (registered (n_log w)) s t).
  { intros t x. split; [exact (C3 (NEnter t x))|]. intros (-> & H). apply C1. eapply opn_leads; eauto. }
  split; [exact E|]. split; [|split].
  - intros t o x. split; [exact (C3 (NData t o x))|]. intros (-> & H & H2). apply C2; [apply E; auto|exact H].
  - intros t o H. exact (C3 _ H).
  - exact (g_reg _ _ _ _ _ G').
Qed.

(** * Examples *)
Section Examples.
  Local Open Scope positive_scope.
  Let two (_ : addr) : Z := 2%Z.
  Let quiet (log : list (nev nat)) (s o : addr) (v : nat) : nbody nat := NReturn.
  Let quietd (log : list (nev nat)) (s o : addr) : nbody nat := NReturn.
  Let setup : list (ncall nat) := [NMake 1; NAdd 1 10; NAdd 1 11].

  (** A copy that adds a third observer refuses; removing from the copy leaves the original alone. *)
  Example C104_answers_ex : exists w, nreaches two quiet quietd w /\
    n_log w = [NRet (NMake 1) ok; NRet (NAdd 1 10) ok; NRet (NAdd 1 11) ok; NRet (NCopy 1 2) ok;
               NRet (NAdd 2 12) list_is_full; NRet (NRemove 2 10) ok; NRet (NAdd 2 12) ok;
               NRet (NAdd 1 10) list_is_full; NRet (NRemove 1 12) not_found].
  Proof.
    eexists. split; [|shelve]. exists 1%nat, (setup ++ [NCopy 1 2; NAdd 2 12; NRemove 2 10; NAdd 2 12; NAdd 1 10; NRemove 1 12]).
    vm_compute. reflexivity. Unshelve. reflexivity.
  Qed.
  Example C104_copy_delivers_ex : exists w, nreaches two quiet quietd w /\ In 1 (living (n_log w)) /\ ~ In 2 (living (n_log w)) /\
    two 1 = two 2 /\ shut (n_log w) 1 = false /\ (forall log o, quiet log 2 o 7%nat = NReturn) /\ registered (n_log w) 1 = [10; 11].
  Proof.
    eexists. split; [exists 1%nat, setup; vm_compute; reflexivity|]. vm_compute. repeat split; auto. intros [|[]]; discriminate.
  Qed.
  Example C104_copy_destroyed_ex : exists w, nreaches two quiet quietd w /\ In 1 (living (n_log w)) /\ ~ In 2 (living (n_log w)) /\
    two 1 = two 2 /\ shut (n_log w) 1 = false /\ (forall log o, quietd log 2 o = NReturn) /\ (forall log o, quiet log 1 o 7%nat = NReturn) /\
    registered (n_log w) 1 = [10; 11].
  Proof.
    eexists. split; [exists 1%nat, setup; vm_compute; reflexivity|]. vm_compute. repeat split; auto. intros [|[]]; discriminate.
  Qed.
  Example C104_assigned_ex : exists w, nreaches two quiet quietd w /\ In 1 (living (n_log w)) /\ In 2 (living (n_log w)) /\
    two 1 = two 2 /\ shut (n_log w) 1 = false /\ (forall log o, quiet log 2 o 7%nat = NReturn) /\
    registered (n_log w) 1 = [10; 11] /\ registered (n_log w) 2 = [12].
  Proof.
    eexists. split; [exists 1%nat, (setup ++ [NMake 2; NAdd 2 12]); vm_compute; reflexivity|]. vm_compute. repeat split; auto.
  Qed.

  (** The first observer of 1 copies its source to 2. *)
  Let copies (log : list (nev nat)) (s o : addr) (v : nat) : nbody nat :=
    if Pos.eqb o 10 then NDo (NCopy 1 2) (fun _ => NReturn) else NReturn.
  Example C104_copied_while_notifying_ex : exists w p q, nreaches two copies quietd w /\
    n_log w = p ++ NRet (NCopy 1 2) ok :: q /\ shut p 1 = true /\ (forall v, ~ In (NEnter 2 v) p) /\
    (forall b, ~ In (NRet (NAssign b 2) ok) q) /\ ~ In (NRet (NDestroy 2) ok) q /\
    q = [NData 1 11 5%nat; NRet (NNotify 1 5%nat) ok; NRet (NNotify 2 6%nat) notify_recursion_detected].
  Proof.
    eexists _, [NRet (NMake 1) ok; NRet (NAdd 1 10) ok; NRet (NAdd 1 11) ok; NEnter 1 5%nat; NData 1 10 5%nat], _.
    split; [exists 2%nat, (setup ++ [NNotify 1 5%nat; NNotify 2 6%nat]); vm_compute; reflexivity|].
    split; [reflexivity|]. split; [reflexivity|]. split; [intros v H; cbn in H; intuition discriminate|].
    split; [intros b H; cbn in H; intuition discriminate|]. split; [intros H; cbn in H; intuition discriminate|reflexivity].
  Qed.

  (** The first observer of 1 deletes it; or assigns 3 to it. *)
  Let deletes (log : list (nev nat)) (s o : addr) (v : nat) : nbody nat :=
    if Pos.eqb o 10 then NDo (NDestroy s) (fun _ => NReturn) else NReturn.
  Example C104_destroyed_by_callback_ex : exists w, nreaches two deletes quietd w /\ In 1 (living (n_log w)) /\
    shut (n_log w) 1 = false /\ registered (n_log w) 1 = [10; 11] /\
    (forall (log : list (nev nat)), deletes log 1 10 7%nat = NDo (NDestroy 1) (fun _ => NReturn)) /\ (forall log p, quietd log 1 p = NReturn).
  Proof.
    eexists. split; [exists 1%nat, setup; vm_compute; reflexivity|]. vm_compute. repeat split; auto.
  Qed.
  Let assigns (log : list (nev nat)) (s o : addr) (v : nat) : nbody nat :=
    if Pos.eqb o 10 then NDo (NAssign 3 s) (fun _ => NReturn) else NReturn.
  Example C104_assigned_by_callback_ex : exists w0 w, nreaches two assigns quietd w0 /\
    nrun two assigns quietd 1 w0 (NMake 3) = Ok (w, ok) /\ two 3 = two 1 /\ In 1 (living (n_log w)) /\
    shut (n_log w) 1 = false /\ registered (n_log w) 1 = [10; 11] /\
    (forall log, assigns log 1 10 7%nat = NDo (NAssign 3 1) (fun _ => NReturn)).
  Proof.
    eexists _, _. split; [exists 1%nat, setup; vm_compute; reflexivity|]. split; [vm_compute; reflexivity|]. vm_compute. repeat split; auto.
  Qed.

  (** Three observables in a circle: 10 listens to 1 and passes on to 2, 20 from 2 to 3, 30 from 3 to 1;
      and 40, which listens to 2, passes nothing on. *)
  Let circle (o : addr) : option addr :=
    if Pos.eqb o 10 then Some 2 else if Pos.eqb o 20 then Some 3 else if Pos.eqb o 30 then Some 1 else None.
  Let ring : list (ncall nat) := [NMake 1; NMake 2; NMake 3; NAdd 1 10; NAdd 2 20; NAdd 2 40; NAdd 3 30].
  Example C105_forwarding_ex : exists w, nreaches two (forwards circle) quietd w /\
    (forall log s o, no_lives (quietd log s o)) /\ In 2 (living (n_log w)) /\
    (forall s o t, In o (registered (n_log w) s) -> circle o = Some t -> In t (living (n_log w))) /\
    (forall (log : list (nev nat)) s o (v : nat), living log = living (n_log w) -> plain (living (n_log w)) (forwards circle log s o v)) /\
    (forall log s o, living log = living (n_log w) -> plain (living (n_log w)) (quietd log s o)) /\
    (forall log s o, no_nclear (quietd log s o)) /\
    match nrun two (forwards circle) quietd 4 w (NNotify 2 9%nat) with
    | Ok (w', _) => skipn (length (n_log w)) (n_log w') =
        [NEnter 2 9; NData 2 20 9; NEnter 3 9; NData 3 30 9; NEnter 1 9; NData 1 10 9;
         NRet (NNotify 2 9) notify_recursion_detected; NRet (NNotify 1 9) ok; NRet (NNotify 3 9) ok; NData 2 40 9;
         NRet (NNotify 2 9) ok]%nat
    | _ => False
    end.
  Proof.
    eexists. split; [exists 1%nat, ring; vm_compute; reflexivity|].
    assert (T : forall o t, circle o = Some t -> In t [3; 2; 1]).
    { intros o t. unfold circle. destruct (Pos.eqb o 10), (Pos.eqb o 20), (Pos.eqb o 30); intros [= <-]; cbn; auto. }
    split; [constructor|]. split; [cbn; auto|]. split; [intros s o t _; apply T|].
    split; [intros log s o v _; unfold forwards; destruct (circle o) as [t|] eqn:E; [|constructor];
            econstructor; [reflexivity|apply (T o t E)|constructor]|].
    split; [constructor|]. split; [constructor|]. vm_compute. reflexivity.
  Qed.

  (** A value can get to the same observer more than once: two ways lead from 1 to 4. *)
  Let fork (o : addr) : option addr :=
    if Pos.eqb o 10 then Some 2 else if Pos.eqb o 11 then Some 3 else if Pos.eqb o 20 then Some 4 else if Pos.eqb o 30 then Some 4 else None.
  Example C105_forwarding_twice_ex :
    match nrun_all two (forwards fork) quietd 5 nothing
            [NMake 1; NMake 2; NMake 3; NMake 4; NAdd 1 10; NAdd 1 11; NAdd 2 20; NAdd 3 30; NAdd 4 40; NNotify 1 9%nat] with
    | Ok w => filter (fun e => match e with NData 4 40 _ => true | _ => false end) (n_log w) = [NData 4 40 9; NData 4 40 9]%nat
    | _ => False
    end.
  Proof. vm_compute. reflexivity. Qed.
End Examples.

Print Assumptions C104_answers.
Print Assumptions C104_copy_delivers.
Print Assumptions C104_copy_destroyed.
Print Assumptions C104_assigned.
Print Assumptions C104_copied_while_notifying.
Print Assumptions C104_destroyed_by_callback_refuted.
Print Assumptions C104_assigned_by_callback_refuted.
Print Assumptions C105_defined.
Print Assumptions C105_ends.
Print Assumptions C105_open_between_calls.
Print Assumptions C105_forwarding_reaches_all.
