(** Properties C19-C27: comm::observable (static, dynamic) and the compile-time
    observable.  [reaches self Max on_data on_disc w]: [w] is the result of some
    sequence of client calls on a fresh observable at address [self] whose
    observers' callbacks behave as [on_data]/[on_disc] (arbitrary functions of
    everything that has happened); [w_log w] is the log of visible events. *)
From Verif Require Import ObserverProofs5.

(** Behaviours used in the examples: values are integers, observer 1 removes
    itself when called, observer 2 notifies 77 and adds observer 9. *)
Definition quiet_data (log : list (ev Z)) (o : addr) (v : Z) : body Z := Return.
Definition quiet_disc (log : list (ev Z)) (o : addr) : body Z := Return.
Definition self_remover (log : list (ev Z)) (o : addr) (v : Z) : body Z :=
  if Pos.eqb o 1 then Do (Remove 1) (fun _ => Return) else Return.
Definition meddler (log : list (ev Z)) (o : addr) (v : Z) : body Z :=
  if Pos.eqb o 2 then Do (Notify 77) (fun _ => Do (Add 9) (fun _ => Do Clear (fun _ => Return)))
  else Return.
Definition adder (log : list (ev Z)) (o : addr) (v : Z) : body Z :=
  if Pos.eqb o 2 then Do (Add 9) (fun _ => Do (Notify 5) (fun _ => Return)) else Return.
Definition setup : list (call Z) := [Add 1; Add 2; Add 7; Remove 7; Add 3; Add 2; Remove 8].

(** World and log after a list of calls. *)
Definition after (Max : Z) d (l : list (call Z)) : world Z :=
  match run_all 50 Max d quiet_disc 4 (fresh Max) l with Ok w => w | _ => fresh Max end.
Definition out (Max : Z) d (w : world Z) (c : call Z) : list (ev Z) :=
  match run 50 Max d quiet_disc 4 w c with
  | Ok (w', _) => skipn (length (w_log w)) (w_log w') | _ => [] end.

Lemma after_reaches Max d l :
  match run_all 50 Max d quiet_disc 4 (fresh Max) l with Ok _ => true | _ => false end = true ->
  reaches 50 Max d quiet_disc (after Max d l).
Proof.
  intros H. exists 4%nat, l. unfold after.
  destruct (run_all 50 Max d quiet_disc 4 (fresh Max) l); [reflexivity|discriminate|discriminate].
Qed.
Example setup_reaches : reaches 50 4 meddler quiet_disc (after 4 meddler setup).
Proof. apply after_reaches. vm_compute. reflexivity. Qed.

(** ** C19 *)
Theorem C19_add_answers : forall V self Max on_data on_disc (w : world V) p o e q,
  reaches self Max on_data on_disc w -> w_log w = p ++ Ret (Add o) e :: q ->
  e = if (max_observers Max <=? length (members p))%nat then list_is_full
      else if in_dec Pos.eq_dec o (members p) then already_contains else ok.
Proof.
  intros V self Max d c w p o e q R E.
  exact (good_add_answer self Max _ (i_good _ _ _ (proj1 (reach_inv _ _ _ _ w R))) p o e q E).
Qed.

Theorem C19_remove_answers : forall V self Max on_data on_disc (w : world V) p o e q,
  reaches self Max on_data on_disc w -> w_log w = p ++ Ret (Remove o) e :: q ->
  e = if in_dec Pos.eq_dec o (members p) then ok else not_found.
Proof.
  intros V self Max d c w p o e q R E.
  exact (good_remove_answer self Max _ (i_good _ _ _ (proj1 (reach_inv _ _ _ _ w R))) p o e q E).
Qed.

Theorem C19_bounded_set : forall V self Max on_data on_disc (w : world V),
  reaches self Max on_data on_disc w ->
  NoDup (members (w_log w)) /\ (length (members (w_log w)) <= max_observers Max)%nat /\
  (0 <= Max < 2 ^ 32 -> Z.of_nat (max_observers Max) = Max).
Proof.
  intros V self Max d c w R. pose proof (proj1 (reach_inv _ _ _ _ w R)) as I.
  split; [exact (i_nodup _ _ _ I)|]. split; [exact (members_le self Max w I)|].
  intros H. unfold max_observers. rewrite Z.mod_small by exact H. lia.
Qed.

(** add and remove themselves always return, for every callback behaviour. *)
Theorem C19_calls_return : forall V self Max on_data on_disc (w : world V) f o,
  reaches self Max on_data on_disc w ->
  (exists w', run self Max on_data on_disc (S f) w (Add o)
              = Ok (w', add_answer (max_observers Max) (members (w_log w)) o) /\
     w_log w' = w_log w ++ [Ret (Add o) (add_answer (max_observers Max) (members (w_log w)) o)]) /\
  (exists w', run self Max on_data on_disc (S f) w (Remove o)
              = Ok (w', remove_answer (members (w_log w)) o) /\
     w_log w' = w_log w ++ [Ret (Remove o) (remove_answer (members (w_log w)) o)]).
Proof.
  intros V self Max d c w f o R. pose proof (proj1 (reach_inv _ _ _ _ w R)) as I. split.
  - destruct (run_add self Max d c f w o I) as (w' & A & _ & B). exists w'. exact (conj A B).
  - destruct (run_remove self Max d c f w o I) as (w' & A & _ & B). exists w'. exact (conj A B).
Qed.

Example C19_ex :
  w_log (after 4 meddler setup)
  = [Ret (Add 1) ok; Ret (Add 2) ok; Ret (Add 7) ok; Ret (Remove 7) ok; Ret (Add 3) ok;
     Ret (Add 2) already_contains; Ret (Remove 8) not_found] /\
  members (w_log (after 4 meddler setup)) = [1; 2; 3]%positive /\
  out 3 meddler (after 3 meddler setup) (Add 9) = [Ret (Add 9) list_is_full].
Proof. vm_compute. tauto. Qed.

(** ** C20 *)
Theorem C20_notify_exact : forall V self Max on_data on_disc (w : world V) f v,
  (forall log o v, on_data log o v = Return) ->
  reaches self Max on_data on_disc w ->
  exists w', run self Max on_data on_disc (S f) w (Notify v) = Ok (w', ok) /\
    w_log w' = w_log w ++ map (fun o => Data self o v) (members (w_log w)) ++ [Ret (Notify v) ok].
Proof.
  intros V self Max d c w f v Q R. destruct (reach_inv _ _ _ _ w R) as [I J].
  exact (quiet_notify self Max d c f w v Q I J).
Qed.

Example C20_ex :
  out 4 quiet_data (after 4 quiet_data setup) (Notify 42)
  = [Data 50 1 42; Data 50 2 42; Data 50 3 42; Ret (Notify 42) ok].
Proof. vm_compute. reflexivity. Qed.

(** ** C21 *)
Theorem C21_recursion_refused : forall V self Max on_data on_disc (w : world V) f v w' e,
  reaches self Max on_data on_disc w ->
  run self Max on_data on_disc f w (Notify v) = Ok (w', e) ->
  e = ok /\ exists evs, w_log w' = w_log w ++ evs ++ [Ret (Notify v) ok] /\
    (forall v' e', In (Ret (Notify v') e') evs -> e' = notify_recursion_detected) /\
    (forall src o v', In (Data src o v') evs -> src = self /\ v' = v) /\
    length (deliveries evs) = length (members (w_log w)).
Proof.
  intros V self Max d c w f v w' e R E. destruct (reach_inv _ _ _ _ w R) as [I J].
  destruct (run_inv self Max d c f w (Notify v) w' e I E) as (_ & evs & L & _ & P).
  rewrite J in P. destruct P as [-> [P1 P2]]. split; [reflexivity|].
  exists evs. split; [exact L|]. rewrite Forall_forall in P2. split; [|split; [|exact P1]].
  - intros v' e' H. destruct (P2 _ H) as [H1|[o H1]]; [exact H1|discriminate].
  - intros src o v' H. destruct (P2 _ H) as [[]|[o' H1]]. inversion H1. tauto.
Qed.

(** Every outermost call comes to an end, whatever the data callbacks do, if
    disconnect handlers do not themselves clear the observable. *)
Theorem C21_calls_end : forall V self Max on_data on_disc (w : world V) f c,
  (forall log o, no_clear (on_disc log o)) ->
  reaches self Max on_data on_disc w -> (4 <= f)%nat ->
  exists w' e, run self Max on_data on_disc f w c = Ok (w', e).
Proof.
  intros V self Max d di w f c NC R L. destruct (reach_inv _ _ _ _ w R) as [I J].
  pose proof (all_done self Max d di NC (f - 4) w c I) as D.
  replace (4 + (f - 4))%nat with f in D by lia.
  destruct (run self Max d di f w c) as [[w' e]| |]; try contradiction.
  exists w', e. reflexivity.
Qed.

Example C21_ex :
  out 4 meddler (after 4 meddler setup) (Notify 42)
  = [Data 50 1 42; Data 50 2 42; Ret (Notify 77) notify_recursion_detected; Ret (Add 9) ok;
     Disc 50 1; Disc 50 2; Disc 50 3; Disc 50 9; Ret Clear ok; Data 50 3 42; Ret (Notify 42) ok] /\
  no_clear (quiet_disc [] 1).
Proof. split; [vm_compute; reflexivity|constructor]. Qed.

(** ** C22 *)
Theorem C22_clear_disconnects : forall V self Max on_data on_disc (w : world V) f,
  (forall log o, on_disc log o = Return) ->
  reaches self Max on_data on_disc w ->
  exists w', run self Max on_data on_disc (S f) w Clear = Ok (w', ok) /\
    w_log w' = w_log w ++ map (Disc self) (members (w_log w)) ++ [Ret Clear ok] /\
    members (w_log w') = [].
Proof.
  intros V self Max d c w f Q R. pose proof (proj1 (reach_inv _ _ _ _ w R)) as I.
  destruct (quiet_clear self Max d c f w Q I) as (w' & A & B). exists w'.
  split; [exact A|]. split; [exact B|]. rewrite B, app_assoc, members_snoc. reflexivity.
Qed.

Example C22_ex :
  out 4 meddler (after 4 meddler setup) Clear = [Disc 50 1; Disc 50 2; Disc 50 3; Ret Clear ok].
Proof. vm_compute. reflexivity. Qed.

(** ** C23 *)
Theorem C23_never_undefined : forall V self Max on_data on_disc f (calls : list (call V)),
  run_all self Max on_data on_disc f (fresh Max) calls <> UB.
Proof.
  intros V self Max d c f calls.
  assert (G : forall w, inv self Max w -> run_all self Max d c f w calls <> UB).
  { induction calls as [|x l IH]; intros w I; cbn [run_all]; [discriminate|].
    pose proof (run_post self Max d c f w x I) as P.
    destruct (run self Max d c f w x) as [[w' e]| |]; cbn [bind]; [|contradiction|discriminate].
    apply IH. apply P. }
  apply G. apply inv_fresh.
Qed.

Theorem C23_only_registered_called : forall V self Max on_data on_disc (w : world V) p q src o v,
  reaches self Max on_data on_disc w ->
  (w_log w = p ++ Data src o v :: q \/ w_log w = p ++ Disc src o :: q) ->
  src = self /\ In (Ret (Add o) ok) p.
Proof.
  intros V self Max d c w p q src o v R E.
  pose proof (i_good _ _ _ (proj1 (reach_inv _ _ _ _ w R))) as G. destruct E as [E|E].
  - exact (good_data_added self Max _ G p src o v q E).
  - exact (good_disc_added self Max _ G p src o q E).
Qed.

Example C23_ex : reaches 50 4 meddler quiet_disc (after 4 meddler (setup ++ [Notify 42])) /\
  nth_error (w_log (after 4 meddler (setup ++ [Notify 42]))) 8 = Some (Data 50 2 42).
Proof. split; [apply after_reaches; vm_compute; reflexivity|vm_compute; reflexivity]. Qed.

(** ** C24 *)
(** Observers 1, 2, 3 are registered; 1 removes itself when called.  Observer 2,
    registered throughout, is not called and 3 is called twice. *)
Theorem C24_removal_skips_refuted : exists (w : world Z) w',
  reaches 50 4 self_remover quiet_disc w /\
  members (w_log w) = [1; 2; 3]%positive /\
  run 50 4 self_remover quiet_disc 4 w (Notify 42) = Ok (w', ok) /\
  members (w_log w') = [2; 3]%positive /\
  w_log w' = w_log w ++ [Data 50 1 42; Ret (Remove 1) ok; Data 50 3 42; Data 50 3 42; Ret (Notify 42) ok].
Proof.
  exists (after 4 self_remover setup). eexists.
  split; [apply after_reaches; vm_compute; reflexivity|].
  split; [vm_compute; reflexivity|]. split; [vm_compute; reflexivity|].
  split; vm_compute; reflexivity.
Qed.

(** Exactly what happens, for any number of observers and any position: an observer
    that removes itself or somebody registered before it makes the next one miss the
    notification, and the last one gets it once more in exchange (nothing happens if it
    is itself the last). *)
Theorem C24_removing_self_or_earlier : forall V self Max on_disc (w : world V) f v a x pre post,
  reaches self Max (remover a x) on_disc w -> members (w_log w) = pre ++ a :: post ->
  In x (pre ++ [a]) ->
  exists w', run self Max (remover a x) on_disc (S (S f)) w (Notify v) = Ok (w', ok) /\
    w_log w' = w_log w ++ map (fun o => Data self o v) (pre ++ [a]) ++ [Ret (Remove x) ok]
               ++ map (fun o => Data self o v) (match post with [] => [] | s :: l => l ++ [last l s] end)
               ++ [Ret (Notify v) ok].
Proof.
  intros V self Max on_disc w f v a x pre post R M H. destruct (reach_inv _ _ _ _ w R) as [I J].
  pose proof (i_nodup _ _ _ I) as ND. rewrite M in ND. pose proof (NoDup_remove _ _ _ ND) as [_ NA].
  assert (NR : ~ In a (match post with [] => [] | s :: l => l ++ [last l s] end)).
  { intros X. apply NA, in_app_iff. right. destruct post as [|s l]; [destruct X|].
    apply in_app_iff in X. destruct X as [X|[X|[]]]; [right; exact X|]. rewrite <- X.
    destruct l as [|y l] using rev_ind; [left; reflexivity|]. rewrite last_last. right. apply in_app_iff. right. left. reflexivity. }
  apply in_app_iff in H. destruct H as [H|[<-|[]]].
  - apply in_split in H. destruct H as (p1 & p2 & ->).
    eapply (remover_notify self Max on_disc f w v a x (p1 ++ x :: p2) post p1 (p2 ++ a :: post)
              (p1 ++ p2 ++ a :: match post with [] => [a] | s :: l => [s] end)); try eassumption.
    + rewrite <- app_assoc. reflexivity.
    + destruct post as [|s l].
      * rewrite last_last, <- !app_assoc. cbn. reflexivity.
      * replace (last (p2 ++ a :: s :: l) x) with (last l s).
        { rewrite <- !app_assoc. cbn [app]. rewrite <- ?app_assoc. reflexivity. }
        clear. induction p2 as [|y p2 IH]; cbn [app].
        -- rewrite !last_cons_default. reflexivity.
        -- rewrite IH. destruct (p2 ++ a :: s :: l) eqn:E; [destruct p2; discriminate|]. reflexivity.
    + rewrite !app_length. destruct post; cbn; lia.
  - eapply (remover_notify self Max on_disc f w v a a pre post pre post
              (pre ++ match post with [] => [a] | s :: l => [s] end)); try eassumption; try reflexivity.
    + destruct post as [|s l]; [cbn; rewrite app_nil_r; reflexivity|].
      rewrite last_cons_default, <- app_assoc. reflexivity.
    + rewrite app_length. destruct post; cbn; lia.
Qed.

(** So with further ones registered behind it: the next one [s] stays registered but is not
    called in this round, the last one is called twice, every other one once. *)
Theorem C24_next_one_is_skipped : forall V self Max on_disc (w : world V) f v a x pre s post w' e,
  reaches self Max (remover a x) on_disc w -> members (w_log w) = pre ++ a :: s :: post ->
  In x (pre ++ [a]) -> post <> [] ->
  run self Max (remover a x) on_disc (S (S f)) w (Notify v) = Ok (w', e) ->
  In s (members (w_log w')) /\
  exists evs, w_log w' = w_log w ++ evs /\
    forall o, count_occ Pos.eq_dec (recipients evs) o
      = if Pos.eq_dec o s then 0%nat else if Pos.eq_dec o (last post s) then 2%nat
        else if in_dec Pos.eq_dec o (members (w_log w)) then 1%nat else 0%nat.
Proof.
  intros V self Max on_disc w f v a x pre s post w' e R M H NE E.
  destruct (C24_removing_self_or_earlier V self Max on_disc w f v a x pre (s :: post) R M H) as (w2 & E2 & L).
  rewrite E in E2. inversion E2; subst w2 e. clear E2.
  destruct (reach_inv _ _ _ _ w R) as [I J]. pose proof (i_nodup _ _ _ I) as ND. rewrite M in ND.
  split.
  - rewrite L. unfold members. rewrite fold_left_app. fold (members (w_log w)). rewrite M.
    rewrite !fold_left_app, members_data. cbn [fold_left member_step]. rewrite members_data.
    apply in_in_remove.
    + intros ->. replace (pre ++ a :: x :: post) with ((pre ++ [a]) ++ x :: post) in ND by (rewrite <- app_assoc; reflexivity).
      apply NoDup_remove_2 in ND. apply ND, in_app_iff. left. exact H.
    + apply in_app_iff. right. right. left. reflexivity.
  - eexists. split; [exact L|]. intros o. rewrite M. rewrite <- (skipped_counts pre post a s ND NE o).
    rewrite !recipients_app, !recipients_data. cbn [recipients flat_map app]. rewrite app_nil_r. reflexivity.
Qed.

(** An observer that removes one registered after it: that one is not called, unless it is
    the last, which is called although it has been removed; if not, the last is called twice. *)
Theorem C24_removing_later : forall V self Max on_disc (w : world V) f v a x pre q s,
  reaches self Max (remover a x) on_disc w -> members (w_log w) = pre ++ a :: q ++ x :: s ->
  exists w', run self Max (remover a x) on_disc (S (S f)) w (Notify v) = Ok (w', ok) /\
    w_log w' = w_log w ++ map (fun o => Data self o v) (pre ++ [a]) ++ [Ret (Remove x) ok]
               ++ map (fun o => Data self o v) (q ++ s ++ [last s x]) ++ [Ret (Notify v) ok].
Proof.
  intros V self Max on_disc w f v a x pre q s R M. destruct (reach_inv _ _ _ _ w R) as [I J].
  pose proof (i_nodup _ _ _ I) as ND. rewrite M in ND. apply NoDup_remove in ND. destruct ND as [_ NA].
  eapply (remover_notify self Max on_disc f w v a x pre (q ++ x :: s) (pre ++ a :: q) s (pre ++ [a])); try eassumption.
  - rewrite <- app_assoc. reflexivity.
  - rewrite <- !app_assoc. reflexivity.
  - rewrite app_length. cbn. lia.
  - intros X. apply NA, in_app_iff. right. apply in_app_iff. apply in_app_iff in X. destruct X as [X|X]; [left; exact X|right].
    apply in_app_iff in X. destruct X as [X|[X|[]]]; [right; exact X|]. rewrite <- X.
    destruct s as [|y l _] using rev_ind; [left; reflexivity|]. rewrite last_last. right. apply in_app_iff. right. left. reflexivity.
Qed.

(** If callbacks only add or notify, everybody registered at the start is called
    exactly once, in order, and newcomers are not called in this round. *)
Theorem C24_additions_are_safe : forall V self Max on_data on_disc (w : world V) f v w' e,
  (forall log o v, keeps (on_data log o v)) ->
  reaches self Max on_data on_disc w ->
  run self Max on_data on_disc f w (Notify v) = Ok (w', e) ->
  e = ok /\ exists evs, w_log w' = w_log w ++ evs ++ [Ret (Notify v) ok] /\
    deliveries evs = map (fun o => Data self o v) (members (w_log w)).
Proof.
  intros V self Max d c w f v w' e K R E. destruct (reach_inv _ _ _ _ w R) as [I J].
  exact (keeps_notify_exact self Max d c K f w v w' e I J E).
Qed.

Example C24_ex :
  (forall log o v, keeps (adder log o v)) /\
  out 4 adder (after 4 adder setup) (Notify 42)
  = [Data 50 1 42; Data 50 2 42; Ret (Add 9) ok; Ret (Notify 5) notify_recursion_detected;
     Data 50 3 42; Ret (Notify 42) ok].
Proof.
  split; [|vm_compute; reflexivity].
  intros log o v. unfold adder. destruct (Pos.eqb o 2); repeat constructor.
Qed.

(** Seven observers, the third removes the second: the fourth is skipped. *)
Example C24_ex_remover :
  let w := after 9 (remover 3 2) [Add 1; Add 2; Add 3; Add 4; Add 5; Add 6; Add 7] in
  reaches 50 9 (remover 3 2) quiet_disc w /\
  members (w_log w) = [1; 2]%positive ++ 3%positive :: 4%positive :: [5; 6; 7]%positive /\
  recipients (out 9 (remover 3 2) w (Notify 42)) = [1; 2; 3; 5; 6; 7; 7]%positive /\
  recipients (out 9 (remover 3 5) (after 9 (remover 3 5) [Add 1; Add 3; Add 4; Add 5]) (Notify 42))
  = [1; 3; 4; 5]%positive.
Proof. cbv zeta. split; [apply after_reaches; vm_compute; reflexivity|vm_compute; tauto]. Qed.

(** ** C25 *)
Theorem C25_add_answers : forall V self locking on_data on_disc (w : dworld V) p o e q,
  dreaches self locking on_data on_disc w -> d_log w = p ++ Ret (Add o) e :: q ->
  e = if in_dec Pos.eq_dec o (members p) then already_contains else ok.
Proof.
  intros V self lk d c w p o e q R E.
  exact (dgood_add_answer self _ (di_good _ _ (proj1 (dreach_inv self lk d c w R))) p o e q E).
Qed.

Theorem C25_remove_answers : forall V self locking on_data on_disc (w : dworld V) p o e q,
  dreaches self locking on_data on_disc w -> d_log w = p ++ Ret (Remove o) e :: q ->
  e = if in_dec Pos.eq_dec o (members p) then ok else not_found.
Proof.
  intros V self lk d c w p o e q R E.
  exact (dgood_remove_answer self _ (di_good _ _ (proj1 (dreach_inv self lk d c w R))) p o e q E).
Qed.

Theorem C25_add_remove_return : forall V self locking on_data on_disc (w : dworld V) f c,
  dreaches self locking on_data on_disc w -> (exists o, c = Add o \/ c = Remove o) ->
  exists w' e, drun self locking on_data on_disc (S f) w c = Ok (w', e) /\
               d_log w' = d_log w ++ [Ret c e] /\ NoDup (members (d_log w')).
Proof.
  intros V self lk d di w f c R H. destruct (dreach_inv self lk d di w R) as [I J].
  destruct (dsimple_done self lk d di f w c J H) as (w' & e & E).
  destruct (drun_post self lk d di (S f) w c w' e I E) as (X & evs & L & P).
  exists w', e. split; [exact E|]. split; [|exact (di_nodup _ _ (de_inv _ _ _ X))].
  destruct H as [o [-> | ->]]; destruct P as [-> _]; exact L.
Qed.

Theorem C25_notify_exact : forall V self locking on_data on_disc (w : dworld V) f v,
  (forall log o v, on_data log o v = Return) ->
  dreaches self locking on_data on_disc w ->
  exists w', drun self locking on_data on_disc (S f) w (Notify v) = Ok (w', ok) /\
    d_log w' = d_log w ++ map (fun o => Data self o v) (members (d_log w)) ++ [Ret (Notify v) ok].
Proof.
  intros V self lk d c w f v Q R. destruct (dreach_inv self lk d c w R) as [I J].
  exact (dquiet_notify self lk d c f w v Q I J).
Qed.

Theorem C25_clear_disconnects : forall V self locking on_data on_disc (w : dworld V) f,
  (forall log o, on_disc log o = Return) ->
  dreaches self locking on_data on_disc w ->
  exists w', drun self locking on_data on_disc (S f) w Clear = Ok (w', ok) /\
    d_log w' = d_log w ++ map (Disc self) (members (d_log w)) ++ [Ret Clear ok].
Proof.
  intros V self lk d c w f Q R. destruct (dreach_inv self lk d c w R) as [I J].
  exact (dquiet_clear self lk d c f w Q I J).
Qed.

Definition dafter (lk : bool) d (l : list (call Z)) : dworld Z :=
  match drun_all 50 lk d quiet_disc 4 dfresh l with Ok w => w | _ => dfresh end.
Definition dout (lk : bool) d (w : dworld Z) (c : call Z) : option (list (ev Z)) :=
  match drun 50 lk d quiet_disc 4 w c with
  | Ok (w', _) => Some (skipn (length (d_log w)) (d_log w')) | _ => None end.
Lemma dafter_reaches lk d l :
  match drun_all 50 lk d quiet_disc 4 dfresh l with Ok _ => true | _ => false end = true ->
  dreaches 50 lk d quiet_disc (dafter lk d l).
Proof.
  intros H. exists 4%nat, l. unfold dafter.
  destruct (drun_all 50 lk d quiet_disc 4 dfresh l); [reflexivity|discriminate|discriminate].
Qed.

Example C25_ex :
  dreaches 50 true quiet_data quiet_disc (dafter true quiet_data setup) /\
  dout true quiet_data (dafter true quiet_data setup) (Notify 42)
  = Some [Data 50 1 42; Data 50 2 42; Data 50 3 42; Ret (Notify 42) ok] /\
  dout true quiet_data (dafter true quiet_data setup) (Add 3) = Some [Ret (Add 3) already_contains].
Proof. split; [apply dafter_reaches; vm_compute; reflexivity|vm_compute; tauto]. Qed.

(** ** C26 *)
(** With the mutex: as soon as one registered observer's callback calls back into
    the observable, notify does not come back (relocking is undefined). *)
Theorem C26_reentry_under_lock : forall V self on_data on_disc (w : dworld V) f v,
  dreaches self true on_data on_disc w ->
  (exists o, In o (members (d_log w)) /\ forall log, on_data log o v <> Return) ->
  drun self true on_data on_disc (2 + f) w (Notify v) = UB.
Proof.
  intros V self d c w f v R H. destruct (dreach_inv self true d c w R) as [I J].
  exact (locked_notify self d c (S f) w v I J H).
Qed.

(** Without the mutex: renotifying from the callbacks never ends. *)
Theorem C26_renotify_without_lock : forall V self on_data on_disc (w : dworld V) f v,
  dreaches self false on_data on_disc w -> members (d_log w) <> [] ->
  (forall log o v, exists v' k, on_data log o v = Do (Notify v') k) ->
  drun self false on_data on_disc f w (Notify v) = Fuel.
Proof.
  intros V self d c w f v R N H. destruct (dreach_inv self false d c w R) as [I J].
  refine (renotify_diverges self d c H f w v _). rewrite (di_obs _ _ I). exact N.
Qed.

(** With or without the mutex: a notification that completes is one during which
    no callback changed the set (otherwise the loop's iterators are invalid). *)
Theorem C26_no_change_during_notify : forall V self locking on_data on_disc (w : dworld V) f v w' e,
  dreaches self locking on_data on_disc w ->
  drun self locking on_data on_disc f w (Notify v) = Ok (w', e) ->
  exists evs, d_log w' = d_log w ++ evs ++ [Ret (Notify v) ok] /\
    (forall x, In x evs -> changed x = false) /\ members (d_log w') = members (d_log w).
Proof.
  intros V self lk d c w f v w' e R E. destruct (dreach_inv self lk d c w R) as [I J].
  destruct (drun_post self lk d c f w (Notify v) w' e I E) as (_ & evs & L & -> & P).
  exists evs. split; [exact L|]. split; [exact P|]. rewrite L. apply members_app_quiet.
  intros x Hx. rewrite in_app_iff in Hx. destruct Hx as [Hx|[<-|[]]]; [exact (P x Hx)|reflexivity].
Qed.

Definition renotifier (log : list (ev Z)) (o : addr) (v : Z) : body Z :=
  Do (Notify v) (fun _ => Return).
Example C26_ex :
  dreaches 50 true self_remover quiet_disc (dafter true self_remover setup) /\
  drun 50 true self_remover quiet_disc 4 (dafter true self_remover setup) (Notify 42) = UB /\
  drun 50 false self_remover quiet_disc 4 (dafter false self_remover setup) (Notify 42) = UB /\
  drun 50 false renotifier quiet_disc 9 (dafter false renotifier setup) (Notify 42) = Fuel.
Proof. split; [apply dafter_reaches; vm_compute; reflexivity|vm_compute; tauto]. Qed.

(** ** C27 *)
Theorem C27_chain_notify : forall U D (deliver : U -> addr -> addr -> D -> U) u r o os d,
  chain_notify deliver u (construct r o os) d
  = fold_left (fun u' x => deliver u' r x d) (o :: os) u.
Proof.
  intros U D deliver u r o os d. rewrite chain_notify_fold.
  destruct (construct_list r os o) as [-> ->]. reflexivity.
Qed.

Example C27_ex :
  chain_notify (fun l src x (d : Z) => l ++ [(src, x, d)]) [] (construct 9 1 [2; 3]%positive) 5
  = [(9%positive, 1%positive, 5); (9%positive, 2%positive, 5); (9%positive, 3%positive, 5)].
Proof. reflexivity. Qed.

Print Assumptions C19_add_answers.
Print Assumptions C19_remove_answers.
Print Assumptions C19_bounded_set.
Print Assumptions C19_calls_return.
Print Assumptions C20_notify_exact.
Print Assumptions C21_recursion_refused.
Print Assumptions C21_calls_end.
Print Assumptions C22_clear_disconnects.
Print Assumptions C23_never_undefined.
Print Assumptions C23_only_registered_called.
Print Assumptions C24_removal_skips_refuted.
Print Assumptions C24_removing_self_or_earlier.
Print Assumptions C24_next_one_is_skipped.
Print Assumptions C24_removing_later.
Print Assumptions C24_additions_are_safe.
Print Assumptions C25_add_answers.
Print Assumptions C25_remove_answers.
Print Assumptions C25_add_remove_return.
Print Assumptions C25_notify_exact.
Print Assumptions C25_clear_disconnects.
Print Assumptions C26_reentry_under_lock.
Print Assumptions C26_renotify_without_lock.
Print Assumptions C26_no_change_during_notify.
Print Assumptions C27_chain_notify.
