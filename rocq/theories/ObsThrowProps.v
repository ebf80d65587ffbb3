(** Observers whose callbacks may throw. *)
From Verif Require Import ObsThrowSpec ObserverProofs2 ObsThrowProofs ObsThrowProofs2 ObsThrowProofs3.

(** ** the examples: observers 1, 2 and 3 are added; 2 throws (for data, only on 7) *)
Definition ex_bad_data (o : addr) (v : Z) : option exc := if (Pos.eqb o 2 && Z.eqb v 7)%bool then Some Other else None.
Definition ex_bad_disc (o : addr) : option exc := if Pos.eqb o 2 then Some Other else None.
Definition ex_adds : list (call Z) := [Add 1%positive; Add 2%positive; Add 3%positive].
Definition ex_t : tworld Z :=
  match trun_all 9%positive 4 (plain_data ex_bad_data) (plain_disc ex_bad_disc) 3 (tfresh 4) ex_adds with TOk w _ => w | _ => tfresh 4 end.
Definition ex_u : uworld Z :=
  match urun_all 9%positive (plain_data ex_bad_data) (plain_disc ex_bad_disc) true 3 ufresh ex_adds with TOk w _ => w | _ => ufresh end.
Example ex_t_reached : treaches 9%positive 4 (plain_data ex_bad_data) (plain_disc ex_bad_disc) ex_t /\ tmembers (t_log ex_t) = [1; 2; 3]%positive.
Proof. split; [exists 3%nat, ex_adds |]; vm_compute; reflexivity. Qed.
Example ex_u_reached : ureaches 9%positive (plain_data ex_bad_data) (plain_disc ex_bad_disc) true ex_u /\ tmembers (u_log ex_u) = [1; 2; 3]%positive.
Proof. split; [exists 3%nat, ex_adds |]; vm_compute; reflexivity. Qed.

(** ** C129: the fixed-size observable *)
(** Whatever the observers do and throw, a run of calls either ends the program, exactly at the
    first callback left by an exception, or nothing in it is left by an exception and it is the
    run of observers that never throw; it is never undefined. *)
Theorem C129_ends_at_first_throw : forall V self Max on_data on_disc, exists on_data' on_disc',
  forall fuel (calls : list (call V)),
  match trun_all self Max on_data on_disc fuel (tfresh Max) calls with
  | TOk w _ => Forall no_exception (t_log w) /\
               run_all self Max on_data' on_disc' fuel (fresh Max) calls = Ok (t_seen w)
  | TEnd log => exists evs e, log = evs ++ [e] /\ threw e /\ Forall no_exception evs
  | TUB => False
  | TFuel => run_all self Max on_data' on_disc' fuel (fresh Max) calls = Fuel
  end.
Proof.
  intros V self Max on_data on_disc. exists (q_data V on_data), (q_disc V on_disc). intros fuel calls.
  pose proof (trun_all_agree V self Max on_data on_disc fuel calls (tfresh Max) (Forall_nil _)) as H.
  rewrite seen_fresh in H. destruct (trun_all self Max on_data on_disc fuel (tfresh Max) calls) as [w r | log | |]; auto.
  - destruct H as (_ & HC & HR). auto.
  - destruct (run_all_no_ub self Max (q_data V on_data) (q_disc V on_disc) fuel calls H).
Qed.
Example C129_ends_at_first_throw_ex :
  trun_all 9%positive 4 (plain_data ex_bad_data) (plain_disc ex_bad_disc) 3 ex_t [Notify 5; Notify 7; Notify 5]%Z
  = TEnd (t_log ex_t ++ [TData 9 1 5%Z; TData 9 2 5%Z; TData 9 3 5%Z; TLeft (Notify 5%Z) (TRet ok); TData 9 1 7%Z; TData 9 2 7%Z; TDataThrew 2]%positive).
Proof. vm_compute. reflexivity. Qed.

(** Observers that do not use the observable: a notification ends the program exactly when a
    registered observer throws for the value; those registered before the first such observer
    have been told, no other one. *)
Theorem C129_notify : forall V self Max bad on_disc (w : tworld V) f v,
  treaches self Max (plain_data bad) on_disc w ->
  (Forall (fun o => bad o v = None) (tmembers (t_log w)) -> exists w',
     trun self Max (plain_data bad) on_disc (S f) w (Notify v) = TOk w' (TRet ok) /\
     t_log w' = t_log w ++ map (fun o => TData self o v) (tmembers (t_log w)) ++ [TLeft (Notify v) (TRet ok)]) /\
  (forall pre o post, tmembers (t_log w) = pre ++ o :: post -> Forall (fun o => bad o v = None) pre -> bad o v <> None ->
     trun self Max (plain_data bad) on_disc (S f) w (Notify v)
     = TEnd (t_log w ++ map (fun o => TData self o v) (pre ++ [o]) ++ [TDataThrew o])).
Proof. intros. apply plain_notify; auto. Qed.
Example C129_notify_ex :
  Forall (fun o => ex_bad_data o 5%Z = None) (tmembers (t_log ex_t)) /\
  tmembers (t_log ex_t) = [1%positive] ++ 2%positive :: [3%positive] /\ ex_bad_data 1%positive 7%Z = None /\ ex_bad_data 2%positive 7%Z <> None.
Proof. vm_compute. repeat constructor. discriminate. Qed.

(** Clearing it, and so its destructor, ends the program exactly when disconnect() of a
    registered observer throws. *)
Theorem C129_clear : forall V self Max on_data bad (w : tworld V) f,
  treaches self Max on_data (plain_disc bad) w ->
  (Forall (fun o => bad o = None) (tmembers (t_log w)) -> exists w',
     trun self Max on_data (plain_disc bad) (S f) w Clear = TOk w' (TRet ok) /\
     t_log w' = t_log w ++ map (TDisc self) (tmembers (t_log w)) ++ [TLeft Clear (TRet ok)]) /\
  (forall pre o post, tmembers (t_log w) = pre ++ o :: post -> Forall (fun o => bad o = None) pre -> bad o <> None ->
     trun self Max on_data (plain_disc bad) (S f) w Clear
     = TEnd (t_log w ++ map (TDisc self) (pre ++ [o]) ++ [TDiscThrew o])).
Proof.
  intros V self Max on_data bad w f H. destruct (plain_clear V self Max on_data (plain_disc bad) bad f w eq_refl H) as [H1 H2].
  split; [| exact H2]. intros HF. destruct (H1 HF) as (w' & HR & _ & HL). eauto.
Qed.
Example C129_clear_ex :
  trun 9%positive 4 (plain_data ex_bad_data) (plain_disc ex_bad_disc) 3 ex_t Clear
  = TEnd (t_log ex_t ++ [TDisc 9 1; TDisc 9 2; TDiscThrew 2]%positive).
Proof. vm_compute. reflexivity. Qed.

(** ** C130: the dynamic observable *)
(** Which exceptions leave its calls, whatever the observers do: adding a registered observer
    and removing an unregistered one, with nothing changed; a clear, thrown by disconnect() of
    an observer; never a notification. *)
Theorem C130_exceptions : forall V self on_data on_disc locking (w : uworld V) f c w' x,
  ureaches self on_data on_disc locking w ->
  urun self on_data on_disc locking f w c = TOk w' (TExc x) ->
  match c with
  | Add o => x = Own already_contains /\ In o (tmembers (u_log w)) /\ u_log w' = u_log w ++ [TLeft c (TExc x)]
  | Remove o => x = Own not_found /\ ~ In o (tmembers (u_log w)) /\ u_log w' = u_log w ++ [TLeft c (TExc x)]
  | Clear => exists evs o, u_log w' = u_log w ++ evs ++ [TDiscThrew o; TLeft c (TExc x)]
  | Notify _ => False
  end.
Proof.
  intros V self on_data on_disc locking w f c w' x HR. apply uexceptions. apply (ureach_inv _ _ _ _ _ _ HR).
Qed.
Example C130_exceptions_ex :
  exists w1 w2 w3,
  urun 9%positive (plain_data ex_bad_data) (plain_disc ex_bad_disc) true 3 ex_u (Add 2%positive) = TOk w1 (TExc (Own already_contains)) /\
  urun 9%positive (plain_data ex_bad_data) (plain_disc ex_bad_disc) true 3 ex_u (Remove 5%positive) = TOk w2 (TExc (Own not_found)) /\
  urun 9%positive (plain_data ex_bad_data) (plain_disc ex_bad_disc) true 3 ex_u Clear = TOk w3 (TExc Other).
Proof. do 3 eexists. repeat split; vm_compute; reflexivity. Qed.

(** However the calls before were left, the mutex is free and the next call answers by the
    registered observers. *)
Theorem C130_still_usable : forall V self on_data on_disc locking (w : uworld V) f o,
  ureaches self on_data on_disc locking w ->
  (exists w', urun self on_data on_disc locking (S f) w (Add o)
     = TOk w' (if in_dec Pos.eq_dec o (tmembers (u_log w)) then TExc (Own already_contains) else TRet ok)) /\
  (exists w', urun self on_data on_disc locking (S f) w (Remove o)
     = TOk w' (if in_dec Pos.eq_dec o (tmembers (u_log w)) then TRet ok else TExc (Own not_found))).
Proof.
  intros V self on_data on_disc locking w f o HR. destruct (ureach_inv _ _ _ _ _ _ HR) as [HI HK].
  split; [apply uadd_answer | apply uremove_answer]; auto.
Qed.
Example C130_still_usable_ex : exists w', ureaches 9%positive (plain_data ex_bad_data) (plain_disc ex_bad_disc) true w' /\
  In (TLeft Clear (TExc Other)) (u_log w') /\ tmembers (u_log w') = [1; 2; 3]%positive.
Proof.
  exists (match urun 9%positive (plain_data ex_bad_data) (plain_disc ex_bad_disc) true 3 ex_u Clear with TOk w _ => w | _ => ex_u end).
  split; [exists 3%nat, (ex_adds ++ [Clear]); vm_compute; reflexivity |]. split; [vm_compute; tauto | vm_compute; reflexivity].
Qed.

(** With the mutex, and whatever the observers do: a clear left by an exception has told the
    observers up to the one that threw, and every observer is still registered. *)
Theorem C130_clear : forall V self on_data on_disc (w : uworld V) f w' r,
  ureaches self on_data on_disc true w ->
  urun self on_data on_disc true f w Clear = TOk w' r ->
  (r = TRet ok /\ u_log w' = u_log w ++ map (TDisc self) (tmembers (u_log w)) ++ [TLeft Clear (TRet ok)]) \/
  exists pre o post x, r = TExc x /\ tmembers (u_log w) = pre ++ o :: post /\
    u_log w' = u_log w ++ map (TDisc self) (pre ++ [o]) ++ [TDiscThrew o; TLeft Clear (TExc x)].
Proof.
  intros V self on_data on_disc w f w' r HR. destruct (ureach_inv _ _ _ _ _ _ HR) as [HI HK]. apply locked_clear; auto.
Qed.
Example C130_clear_ex : exists w',
  urun 9%positive (plain_data ex_bad_data) (plain_disc ex_bad_disc) true 3 ex_u Clear = TOk w' (TExc Other) /\
  u_log w' = u_log ex_u ++ [TDisc 9 1; TDisc 9 2; TDiscThrew 2; TLeft Clear (TExc Other)]%positive.
Proof. eexists. split; vm_compute; reflexivity. Qed.

(** As long as one of them throws, clearing again and again never gets past it: the observers
    before it are told again each time, those after it never, and all stay registered. *)
Theorem C130_clear_again : forall V self on_data bad locking (w : uworld V) f pre o post x n,
  ureaches self on_data (plain_disc bad) locking w ->
  tmembers (u_log w) = pre ++ o :: post -> Forall (fun o => bad o = None) pre -> bad o = Some x -> exists w',
  urun_all self on_data (plain_disc bad) locking (S f) w (repeat Clear n) = TOk w' (TRet ok) /\
  u_log w' = u_log w ++ concat (repeat (map (TDisc self) (pre ++ [o]) ++ [TDiscThrew o; TLeft Clear (TExc x)]) n) /\
  tmembers (u_log w') = pre ++ o :: post.
Proof.
  intros V self on_data bad locking w f pre o post x n HR HM HB HX. destruct (ureach_inv _ _ _ _ _ _ HR) as [HI HK].
  apply uplain_clears with (bad := bad); auto.
Qed.
Example C130_clear_again_ex :
  tmembers (u_log ex_u) = [1%positive] ++ 2%positive :: [3%positive] /\ ex_bad_disc 1%positive = None /\ ex_bad_disc 2%positive = Some Other.
Proof. vm_compute. auto. Qed.

(** Its destructor ends the program exactly when disconnect() of a registered observer throws,
    a notification exactly when data() does. *)
Theorem C130_destructor : forall V self on_data bad locking (w : uworld V) f,
  ureaches self on_data (plain_disc bad) locking w ->
  (Forall (fun o => bad o = None) (tmembers (u_log w)) -> exists w',
     udestroy self on_data (plain_disc bad) locking (S f) w = TOk w' (TRet ok) /\
     u_log w' = u_log w ++ map (TDisc self) (tmembers (u_log w)) ++ [TLeft Clear (TRet ok)]) /\
  (forall pre o post x, tmembers (u_log w) = pre ++ o :: post -> Forall (fun o => bad o = None) pre -> bad o = Some x ->
     udestroy self on_data (plain_disc bad) locking (S f) w
     = TEnd (u_log w ++ map (TDisc self) (pre ++ [o]) ++ [TDiscThrew o; TLeft Clear (TExc x)])).
Proof.
  intros V self on_data bad locking w f HR. destruct (ureach_inv _ _ _ _ _ _ HR) as [HI HK].
  destruct (uplain_clear V self on_data (plain_disc bad) locking bad f w eq_refl HI HK) as [H1 H2]. unfold udestroy. split.
  - intros HB. destruct (H1 HB) as (w' & -> & HL). eauto.
  - intros pre o post x E HB HX. destruct (H2 _ _ _ _ E HB HX) as (w' & -> & HL). rewrite HL. reflexivity.
Qed.
Example C130_destructor_ex :
  udestroy 9%positive (plain_data ex_bad_data) (plain_disc ex_bad_disc) true 3 ex_u
  = TEnd (u_log ex_u ++ [TDisc 9 1; TDisc 9 2; TDiscThrew 2; TLeft Clear (TExc Other)]%positive).
Proof. vm_compute. reflexivity. Qed.

Theorem C130_notify : forall V self bad on_disc locking (w : uworld V) f v,
  ureaches self (plain_data bad) on_disc locking w ->
  (Forall (fun o => bad o v = None) (tmembers (u_log w)) -> exists w',
     urun self (plain_data bad) on_disc locking (S f) w (Notify v) = TOk w' (TRet ok) /\
     u_log w' = u_log w ++ map (fun o => TData self o v) (tmembers (u_log w)) ++ [TLeft (Notify v) (TRet ok)]) /\
  (forall pre o post, tmembers (u_log w) = pre ++ o :: post -> Forall (fun o => bad o v = None) pre -> bad o v <> None ->
     urun self (plain_data bad) on_disc locking (S f) w (Notify v)
     = TEnd (u_log w ++ map (fun o => TData self o v) (pre ++ [o]) ++ [TDataThrew o])).
Proof.
  intros V self bad on_disc locking w f v HR. destruct (ureach_inv _ _ _ _ _ _ HR) as [HI HK]. apply uplain_notify; auto.
Qed.
Example C130_notify_ex :
  urun 9%positive (plain_data ex_bad_data) (plain_disc ex_bad_disc) true 3 ex_u (Notify 7%Z)
  = TEnd (u_log ex_u ++ [TData 9 1 7%Z; TData 9 2 7%Z; TDataThrew 2]%positive).
Proof. vm_compute. reflexivity. Qed.

Print Assumptions C129_ends_at_first_throw.
Print Assumptions C129_notify.
Print Assumptions C129_clear.
Print Assumptions C130_exceptions.
Print Assumptions C130_still_usable.
Print Assumptions C130_clear.
Print Assumptions C130_clear_again.
Print Assumptions C130_destructor.
Print Assumptions C130_notify.
