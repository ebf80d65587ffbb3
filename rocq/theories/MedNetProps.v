(** Properties C109-C111: mediator managers and modules that come, are copied, and go. *)
From Verif Require Import MediatorProofs MedNetProofs3.
Open Scope string_scope. Open Scope list_scope. Open Scope Z_scope.

(** Example ingredients: three classes, little-endian bytes, handlers that return at once,
    and one module that answers. *)
Definition kt1 := MTy "5data1" 4. Definition kt2 := MTy "5data2" 8. Definition kt3 := MTy "5data3" 8.
Definition kd1 := MDesc kt1 [kt2]. Definition kd2 := MDesc kt2 [kt1]. Definition kd3 := MDesc kt3 [kt2; kt1].
Fixpoint k_sum (s : string) : Z :=
  match s with EmptyString => 7 | String c r => Z.of_nat (Ascii.nat_of_ascii c) + 31 * k_sum r end.
Definition k_enc (D : mty) (v : Z) : list Z := le_bytes (ty_size D) v.
Definition k_silent (log : list kev) (a : addr) (D : mty) (bs : list Z) : kbody := KReturn.
Definition k_mute (log : list kev) (g : addr) (id : Z) (bs : list Z) : kbody := KReturn.
Definition k_same (log : list kev) (g : addr) (id : Z) (bs : list Z) : list Z := bs.
(** Module 12 answers each message with one of its own, once. *)
Definition k_answer (log : list kev) (a : addr) (D : mty) (bs : list Z) : kbody :=
  if Pos.eqb a 12 then if (length (kdirect 0 log) =? 0)%nat then KDo (KSend 12 9) (fun _ => KReturn) else KReturn else KReturn.
(** The manager inverts the first byte of what passes. *)
Definition k_invert (log : list kev) (g : addr) (id : Z) (bs : list Z) : list Z :=
  match bs with b :: r => (255 - b) :: r | [] => [] end.
Definition k_ex handler cs := krun_all k_sum k_enc handler k_mute k_same 20 kfresh cs.
Definition k_setup := [KMgr 1 4; KMgr 2 4; KMod 11 kd1 1; KMod 12 kd2 1; KMod 13 kd3 1; KMod 21 kd3 2]%positive.
Definition k_w handler cs := match k_ex handler cs with KOk w => w | _ => kfresh end.
Lemma k_reached handler cs : (match k_ex handler cs with KOk _ => true | _ => false end) = true ->
  kreaches k_sum k_enc handler k_mute k_same (k_w handler cs).
Proof.
  intros H. exists 20%nat, cs. unfold k_w, k_ex in *. destruct (krun_all _ _ _ _ _ _ _ _); [reflexivity|discriminate..].
Qed.

(** ** C109 *)
Theorem C109_undefined_means : forall hash enc handler hook leaves fuel cs log,
  (forall log g id bs, length (leaves log g id bs) = length bs) ->
  krun_all hash enc handler hook leaves fuel kfresh cs = KUB log ->
  stuck log.
Proof.
  intros hash enc handler hook leaves fuel cs log HL H.
  pose proof (any_safe hash enc handler hook leaves HL fuel cs kfresh kinv_fresh recv_fine_nil) as S. rewrite H in S. apply S.
Qed.
Example C109_ex_undefined :
  match k_ex k_silent (k_setup ++ [KMgrCopy 3 1; KModEnd 12; KMgrSend 3 kt1 5]%positive) with KUB log => length log | _ => 0%nat end = 17%nat.
Proof. vm_compute. reflexivity. Qed.

Theorem C109_only_live_handlers : forall hash enc handler hook leaves fuel cs log before a D bs after,
  (forall log g id bs, length (leaves log g id bs) = length bs) ->
  klog (krun_all hash enc handler hook leaves fuel kfresh cs) = Some log ->
  log = before ++ KRecv a D bs :: after ->
  exists d m g, mod_at (booked before) a = Some (d, m) /\ In a (listed (booked before) g) /\
    In D (md_recvs d) /\ length bs = ty_size D.
Proof.
  intros hash enc handler hook leaves fuel cs log before a D bs after HL H E.
  pose proof (any_safe hash enc handler hook leaves HL fuel cs kfresh kinv_fresh recv_fine_nil) as S.
  destruct (krun_all hash enc handler hook leaves fuel kfresh cs) as [w|l|]; cbn [klog] in H; [injection H as EQ; rewrite EQ in S|injection H as EQ; rewrite EQ in S|discriminate];
    destruct S as [_ S]; apply (S before a D bs after E).
Qed.
Example C109_ex_live : exists before after,
  klog (k_ex k_silent (k_setup ++ [KSend 12 5]%positive)) = Some (before ++ KRecv 13 kt2 [5;0;0;0;0;0;0;0] :: after).
Proof. eexists (firstn 15 (match klog (k_ex k_silent (k_setup ++ [KSend 12 5]%positive)) with Some l => l | None => [] end)), _. vm_compute. reflexivity. Qed.

(** When handlers return at once, a call is undefined exactly if it is at fault. *)
Theorem C109_defined_exactly : forall hash enc handler hook leaves w c,
  (forall log g id bs, length (leaves log g id bs) = length bs) ->
  (forall log a D bs, handler log a D bs = KReturn) -> (forall log g id bs, hook log g id bs = KReturn) ->
  kreaches hash enc handler hook leaves w ->
  exists F, forall fuel, (F <= fuel)%nat ->
    (~ fault (booked (k_log w)) (booked (k_log w)) c -> exists w', krun hash enc handler hook leaves fuel w c = KOk w') /\
    (fault (booked (k_log w)) (booked (k_log w)) c -> exists log, krun hash enc handler hook leaves fuel w c = KUB log).
Proof.
  intros hash enc handler hook leaves w c HL HH HK HR.
  apply quiet_defined; try assumption. apply (reaches_inv hash enc handler hook leaves HL w HR).
Qed.
(** Construction, copying and destruction: whatever handlers do. *)
Theorem C109_lifetimes_exactly : forall hash enc handler hook leaves w c fuel,
  (forall log g id bs, length (leaves log g id bs) = length bs) ->
  kreaches hash enc handler hook leaves w -> ~ sending c -> (1 <= fuel)%nat ->
  (fault (booked (k_log w)) (booked (k_log w)) c /\
   krun hash enc handler hook leaves fuel w c = KUB (k_log w ++ [KBegin c])) \/
  (~ fault (booked (k_log w)) (booked (k_log w)) c /\
   exists w', krun hash enc handler hook leaves fuel w c = KOk w' /\ k_log w' = k_log w ++ [KBegin c; KEnd c]).
Proof.
  intros hash enc handler hook leaves w c fuel HL HR NS LF.
  destruct (others_defined hash enc handler hook leaves w c fuel (reaches_inv hash enc handler hook leaves HL w HR) NS LF)
    as [H|(A & w' & B & _ & C)]; [left; exact H|]. right. split; [exact A|]. exists w'. tauto.
Qed.
(** The copy of module 11 and the original can both be destroyed; a manager whose table is
    full cannot lose a module, but can lose a copy of one. *)
Example C109_ex_lifetimes :
  (match k_ex k_silent (k_setup ++ [KModCopy 14 11; KModEnd 14; KModEnd 11]%positive) with KOk _ => true | _ => false end,
   match k_ex k_silent (k_setup ++ [KMod 15 kd1 1; KModCopy 14 11; KModEnd 14]%positive) with KOk _ => true | _ => false end,
   match k_ex k_silent (k_setup ++ [KMod 15 kd1 1; KModEnd 11]%positive) with KUB _ => true | _ => false end)
  = (true, true, true).
Proof. vm_compute. reflexivity. Qed.

(** Without copies of managers and changes of mediator_, managers list only modules that
    exist and point to them. *)
Theorem C109_no_dangling : forall hash enc handler hook leaves fuel cs log g x,
  (forall log g id bs, length (leaves log g id bs) = length bs) ->
  (forall log a D bs, kcalls tidy (handler log a D bs)) -> (forall log g id bs, kcalls tidy (hook log g id bs)) -> Forall tidy cs ->
  klog (krun_all hash enc handler hook leaves fuel kfresh cs) = Some log ->
  In x (listed (booked log) g) ->
  exists d, mod_at (booked log) x = Some (d, g).
Proof.
  intros hash enc handler hook leaves fuel cs log g x HL HH HK HC H HX.
  pose proof (tidy_safe hash enc handler hook leaves HL fuel cs kfresh HH HK HC kinv_fresh tidyJ_nil) as S.
  destruct (krun_all hash enc handler hook leaves fuel kfresh cs) as [w|l|]; cbn [klog] in H; [injection H as EQ; rewrite EQ in S|injection H as EQ; rewrite EQ in S|discriminate];
    destruct S as [_ S]; destruct (tj_own _ S g x HX) as (d & HD & _); exists d; exact HD.
Qed.
Example C109_ex_no_dangling :
  listed (booked (k_log (k_w k_silent (k_setup ++ [KModEnd 12; KModCopy 14 11]%positive)))) 1 = [11; 13]%positive.
Proof. vm_compute. reflexivity. Qed.

(** A manager that ends before its modules: their destructors and sends are undefined. *)
Theorem C109_manager_first : forall hash enc handler hook leaves w a d g v fuel,
  (forall log g id bs, length (leaves log g id bs) = length bs) ->
  kreaches hash enc handler hook leaves w -> mod_at (booked (k_log w)) a = Some (d, g) -> (1 <= fuel)%nat ->
  (exists log, krun_all hash enc handler hook leaves fuel w [KMgrEnd g; KModEnd a] = KUB log) /\
  (exists log, krun_all hash enc handler hook leaves fuel w [KMgrEnd g; KSend a v] = KUB log).
Proof.
  intros hash enc handler hook leaves w a d g v fuel HL HR HM LF.
  pose proof (reaches_inv hash enc handler hook leaves HL w HR) as I.
  cbn [krun_all].
  destruct (others_defined hash enc handler hook leaves w (KMgrEnd g) fuel I ltac:(intros []) LF) as [(_ & E)|(_ & w1 & E & I1 & L1)];
    rewrite E; cbn [kbind]; [split; eexists; reflexivity|].
  assert (B1 : booked (k_log w1) = Book (bput (mgr_at (booked (k_log w))) g None) (mod_at (booked (k_log w)))).
  { rewrite L1. change [KBegin (KMgrEnd g); KEnd (KMgrEnd g)] with ([KBegin (KMgrEnd g)] ++ [KEnd (KMgrEnd g)]).
    rewrite app_assoc, booked_snoc, booked_quiet by exact Logic.I. reflexivity. }
  split.
  - destruct (others_defined hash enc handler hook leaves w1 (KModEnd a) fuel I1 ltac:(intros []) LF) as [(_ & E2)|(NF & _)].
    + rewrite E2. eexists. reflexivity.
    + exfalso. apply NF. cbn [fault]. rewrite B1. cbn [mod_at mgr_at]. rewrite HM, bput_same. exact Logic.I.
  - destruct fuel as [|f]; [lia|]. cbn [krun kdo].
    assert (I2 : kinv (kemit w1 (KBegin (KSend a v)))) by (apply kinv_quiet; [exact I1|exact Logic.I]).
    rewrite (ki_mod _ I2). cbn [kemit k_log]. rewrite booked_quiet by exact Logic.I. rewrite B1. cbn [mod_at]. rewrite HM. cbn [kneed kbind].
    destruct (k_mgr (kemit w1 (KBegin (KSend a v))) g) as [[tab cnt]|] eqn:EG.
    + exfalso. destruct (mgr_some _ g tab cnt I2 EG) as (n & l & r & EM & _). cbn [kemit k_log] in EM.
      rewrite booked_quiet, B1 in EM by exact Logic.I. cbn [mgr_at] in EM. rewrite bput_same in EM. discriminate.
    + eexists. reflexivity.
Qed.
Example C109_ex_manager_first :
  mod_at (booked (k_log (k_w k_silent k_setup))) 12 = Some (kd2, 1%positive).
Proof. vm_compute. reflexivity. Qed.

(** A module pointed to another manager is not removed from the one that lists it. *)
Theorem C109_redirected : forall hash enc handler hook leaves w a d g h m lh D v,
  (forall log g id bs, length (leaves log g id bs) = length bs) ->
  (forall log a D bs, handler log a D bs = KReturn) -> (forall log g id bs, hook log g id bs = KReturn) ->
  kreaches hash enc handler hook leaves w ->
  mod_at (booked (k_log w)) a = Some (d, g) -> In a (listed (booked (k_log w)) g) ->
  h <> g -> mgr_at (booked (k_log w)) h = Some (m, lh) -> ~ In a lh ->
  exists F, forall fuel, (F <= fuel)%nat ->
    exists log, krun_all hash enc handler hook leaves fuel w [KPoint a h; KModEnd a; KMgrSend g D v] = KUB log.
Proof.
  intros hash enc handler hook leaves w a d g h m lh D v HL HH HK HR HM HI NG EH NI.
  pose proof (reaches_inv hash enc handler hook leaves HL w HR) as I.
  set (b := booked (k_log w)) in *.
  destruct (others_defined hash enc handler hook leaves w (KPoint a h) 1 I ltac:(intros []) (le_n 1)) as [(F & _)|(_ & w1 & E1 & I1 & L1)].
  { exfalso. cbn [fault] in F. fold b in F. congruence. }
  assert (B1 : booked (k_log w1) = Book (mgr_at b) (bput (mod_at b) a (Some (d, h)))).
  { rewrite L1. change [KBegin (KPoint a h); KEnd (KPoint a h)] with ([KBegin (KPoint a h)] ++ [KEnd (KPoint a h)]).
    rewrite app_assoc, booked_snoc, booked_quiet by exact Logic.I. fold b. cbn [book_step]. rewrite HM. reflexivity. }
  destruct (others_defined hash enc handler hook leaves w1 (KModEnd a) 1 I1 ltac:(intros []) (le_n 1)) as [(F & _)|(_ & w2 & E2 & I2 & L2)].
  { exfalso. cbn [fault] in F. rewrite B1 in F. cbn [mod_at mgr_at] in F. rewrite bput_same, EH in F. tauto. }
  assert (BR : broken (booked (k_log w2)) g).
  { rewrite L2. change [KBegin (KModEnd a); KEnd (KModEnd a)] with ([KBegin (KModEnd a)] ++ [KEnd (KModEnd a)]).
    rewrite app_assoc, booked_snoc, booked_quiet by exact Logic.I. rewrite B1. cbn [book_step mod_at]. rewrite bput_same.
    unfold broken, edit. cbn [mgr_at mod_at]. rewrite EH, bput_other by congruence.
    unfold listed in HI. destruct (mgr_at b g) as [[n l]|]; [|destruct HI]. exists a. split; [exact HI|apply bput_same]. }
  destruct (quiet_defined hash enc handler hook leaves HL HH HK w2 (KMgrSend g D v) I2) as [F HF].
  exists (S F). intros fuel LF. destruct fuel as [|f]; [lia|]. cbn [krun_all].
  assert (S1 : krun hash enc handler hook leaves (S f) w (KPoint a h) = KOk w1) by exact E1.
  assert (S2 : krun hash enc handler hook leaves (S f) w1 (KModEnd a) = KOk w2) by exact E2.
  rewrite S1. cbn [kbind]. rewrite S2. cbn [kbind].
  destruct (proj2 (HF (S f) ltac:(lia)) BR) as [log ->]. eexists. reflexivity.
Qed.
Example C109_ex_redirected :
  match k_ex k_silent (k_setup ++ [KPoint 12 2; KModEnd 12; KMgrSend 1 kt1 5]%positive) with KUB _ => true | _ => false end = true.
Proof. vm_compute. reflexivity. Qed.

(** ** C110 *)
Theorem C110_message : forall hash enc handler hook leaves fuel w a v w' d g,
  (forall D v, length (enc D v) = ty_size D) ->
  (forall log g id bs, length (leaves log g id bs) = length bs) ->
  (forall log a D bs, kcalls sending (handler log a D bs)) -> (forall log g id bs, kcalls sending (hook log g id bs)) ->
  kreaches hash enc handler hook leaves w ->
  mod_at (booked (k_log w)) a = Some (d, g) -> told_apart hash (booked (k_log w)) (md_sends d) ->
  krun hash enc handler hook leaves fuel w (KSend a v) = KOk w' ->
  booked (k_log w') = booked (k_log w) /\
  exists first rest,
    k_log w' = k_log w ++ KBegin (KSend a v) :: (first ++ rest) ++ [KEnd (KSend a v)] /\
    finished first /\ finished rest /\
    kdirect 0 first = [KHook g (hash (ty_name (md_sends d))) (enc (md_sends d) v)] /\
    kdirect 0 rest =
      map (fun x => KRecv x (md_sends d)
             (leaves (k_log w ++ KBegin (KSend a v) :: first) g (hash (ty_name (md_sends d))) (enc (md_sends d) v)))
          (filter (hears (booked (k_log w)) (md_sends d)) (listed (booked (k_log w)) g)).
Proof.
  intros hash enc handler hook leaves fuel w a v w' d g HE HL HH HK HR HM AP H.
  apply (route_send hash enc HE handler hook leaves HL HH HK fuel w a v w' d g); try assumption.
  apply (reaches_inv hash enc handler hook leaves HL w HR).
Qed.
(** Module 13 hears 12 with the first byte inverted; 21, of the other manager, does not hear it. *)
Example C110_ex_message :
  match krun_all k_sum k_enc k_answer k_mute k_invert 20 kfresh k_setup with
  | KOk w => match krun k_sum k_enc k_answer k_mute k_invert 20 w (KSend 12 5) with
             | KOk w' => kdirect 0 (removelast (skipn (S (length (k_log w))) (k_log w')))
             | _ => [] end
  | _ => [] end
  = [KHook 1 (k_sum "5data2") [5;0;0;0;0;0;0;0]; KRecv 11 kt2 [250;0;0;0;0;0;0;0]; KRecv 13 kt2 [250;0;0;0;0;0;0;0]].
Proof. vm_compute. reflexivity. Qed.

Theorem C110_manager_message : forall hash enc handler hook leaves fuel w g D v w',
  (forall D v, length (enc D v) = ty_size D) ->
  (forall log g id bs, length (leaves log g id bs) = length bs) ->
  (forall log a D bs, kcalls sending (handler log a D bs)) -> (forall log g id bs, kcalls sending (hook log g id bs)) ->
  kreaches hash enc handler hook leaves w -> told_apart hash (booked (k_log w)) D ->
  krun hash enc handler hook leaves fuel w (KMgrSend g D v) = KOk w' ->
  booked (k_log w') = booked (k_log w) /\
  exists evs,
    k_log w' = k_log w ++ KBegin (KMgrSend g D v) :: evs ++ [KEnd (KMgrSend g D v)] /\ finished evs /\
    kdirect 0 evs = map (fun x => KRecv x D (enc D v)) (filter (hears (booked (k_log w)) D) (listed (booked (k_log w)) g)).
Proof.
  intros hash enc handler hook leaves fuel w g D v w' HE HL HH HK HR AP H.
  apply (route_mgr hash enc HE handler hook leaves HL HH HK fuel w g D v w'); try assumption.
  apply (reaches_inv hash enc handler hook leaves HL w HR).
Qed.
Example C110_ex_manager_message :
  let w := k_w k_answer k_setup in
  match krun k_sum k_enc k_answer k_mute k_same 20 w (KMgrSend 2 kt1 5) with
  | KOk w' => kdirect 0 (removelast (skipn (S (length (k_log w))) (k_log w')))
  | _ => [] end = [KRecv 21 kt1 [5;0;0;0]].
Proof. vm_compute. reflexivity. Qed.

(** A copy of a module never receives: whoever receives was constructed on a manager. *)
Theorem C110_copies_never_hear : forall hash enc handler hook leaves fuel cs log before x D bs after,
  (forall log g id bs, length (leaves log g id bs) = length bs) ->
  (forall log a D bs, kcalls tidy (handler log a D bs)) -> (forall log g id bs, kcalls tidy (hook log g id bs)) -> Forall tidy cs ->
  klog (krun_all hash enc handler hook leaves fuel kfresh cs) = Some log ->
  log = before ++ KRecv x D bs :: after ->
  exists d g, born before x = Some (KMod x d g).
Proof.
  intros hash enc handler hook leaves fuel cs log before x D bs after HL HH HK HC H E.
  pose proof (tidy_safe hash enc handler hook leaves HL fuel cs kfresh HH HK HC kinv_fresh tidyJ_nil) as S.
  destruct (krun_all hash enc handler hook leaves fuel kfresh cs) as [w|l|]; cbn [klog] in H; [injection H as EQ; rewrite EQ in S|injection H as EQ; rewrite EQ in S|discriminate];
    destruct S as [_ S]; apply (tj_recv _ S before x D bs after E).
Qed.
(** Module 14 is a copy of 13: a message 13 gets does not reach it. *)
Example C110_ex_copies :
  let w := k_w k_silent (k_setup ++ [KModCopy 14 13]%positive) in
  (born (k_log w) 14,
   match krun k_sum k_enc k_silent k_mute k_same 20 w (KSend 12 5) with
   | KOk w' => map (fun e => match e with KRecv a _ _ => a | _ => 1%positive end)
                   (kdirect 0 (removelast (skipn (S (length (k_log w))) (k_log w'))))
   | _ => [] end) = (Some (KModCopy 14 13), [1; 11; 13]%positive).
Proof. vm_compute. reflexivity. Qed.

(** Ending a copy changes no manager, even one whose table is full. *)
Theorem C110_ending_a_copy : forall hash enc handler hook leaves fuel cs w x y d g fuel',
  (forall log g id bs, length (leaves log g id bs) = length bs) ->
  (forall log a D bs, kcalls tidy (handler log a D bs)) -> (forall log g id bs, kcalls tidy (hook log g id bs)) -> Forall tidy cs ->
  krun_all hash enc handler hook leaves fuel kfresh cs = KOk w ->
  born (k_log w) x = Some (KModCopy x y) -> mod_at (booked (k_log w)) x = Some (d, g) -> mgr_at (booked (k_log w)) g <> None ->
  (1 <= fuel')%nat ->
  exists w', krun hash enc handler hook leaves fuel' w (KModEnd x) = KOk w' /\
    forall h, mgr_at (booked (k_log w')) h = mgr_at (booked (k_log w)) h.
Proof.
  intros hash enc handler hook leaves fuel cs w x y d g fuel' HL HH HK HC H HB HM HG LF.
  pose proof (tidy_safe hash enc handler hook leaves HL fuel cs kfresh HH HK HC kinv_fresh tidyJ_nil) as S. rewrite H in S.
  destruct S as [I S].
  assert (NL : forall h, ~ In x (listed (booked (k_log w)) h)).
  { intros h HI. destruct (tj_own _ S h x HI) as (d' & _ & HB'). congruence. }
  pose proof (NL g) as NG. unfold listed in NG.
  destruct (mgr_at (booked (k_log w)) g) as [[n l]|] eqn:EG; [|contradiction].
  destruct (others_defined hash enc handler hook leaves w (KModEnd x) fuel' I ltac:(intros []) LF) as [(F & _)|(_ & w1 & E & I1 & L1)].
  { exfalso. cbn [fault] in F. rewrite HM, EG in F. tauto. }
  exists w1. split; [exact E|]. intros h. rewrite L1.
  change [KBegin (KModEnd x); KEnd (KModEnd x)] with ([KBegin (KModEnd x)] ++ [KEnd (KModEnd x)]).
  rewrite app_assoc, booked_snoc, booked_quiet by exact Logic.I. cbn [book_step mgr_at]. rewrite HM. unfold edit. rewrite EG.
  rewrite remove_first_notin by exact NG. unfold bput. destruct (Pos.eq_dec h g); [subst; symmetry; exact EG|reflexivity].
Qed.
Example C110_ex_ending :
  let cs := (k_setup ++ [KMod 15 kd1 1; KModCopy 14 13]%positive) in
  let w := k_w k_silent cs in
  (mgr_at (booked (k_log w)) 1, mod_at (booked (k_log w)) 14, born (k_log w) 14)
  = (Some (4%nat, [11; 12; 13; 15]%positive), Some (kd3, 1%positive), Some (KModCopy 14 13)).
Proof. vm_compute. reflexivity. Qed.

(** A copy sends as its original does: same manager, same receivers, same bytes. *)
Theorem C110_copy_speaks : forall hash enc handler hook leaves w c a v d g fuel w1 fuel' w2,
  (forall D v, length (enc D v) = ty_size D) ->
  (forall log g id bs, leaves log g id bs = bs) ->
  (forall log a D bs, kcalls sending (handler log a D bs)) -> (forall log g id bs, kcalls sending (hook log g id bs)) ->
  kreaches hash enc handler hook leaves w ->
  mod_at (booked (k_log w)) a = Some (d, g) -> told_apart hash (booked (k_log w)) (md_sends d) ->
  krun_all hash enc handler hook leaves fuel w [KModCopy c a; KSend c v] = KOk w1 ->
  krun hash enc handler hook leaves fuel' w (KSend a v) = KOk w2 ->
  exists e1 e2,
    k_log w1 = k_log w ++ [KBegin (KModCopy c a); KEnd (KModCopy c a)] ++ KBegin (KSend c v) :: e1 ++ [KEnd (KSend c v)] /\
    k_log w2 = k_log w ++ KBegin (KSend a v) :: e2 ++ [KEnd (KSend a v)] /\
    finished e1 /\ finished e2 /\ kdirect 0 e1 = kdirect 0 e2.
Proof.
  intros hash enc handler hook leaves w c a v d g fuel w1 fuel' w2 HE HLV HH HK HR HM AP H1 H2.
  assert (HL : forall log g id bs, length (leaves log g id bs) = length bs) by (intros; rewrite HLV; reflexivity).
  pose proof (reaches_inv hash enc handler hook leaves HL w HR) as I.
  set (b := booked (k_log w)) in *. set (D := md_sends d) in *.
  destruct fuel as [|f]; [discriminate|]. cbn [krun_all] in H1.
  destruct (others_defined hash enc handler hook leaves w (KModCopy c a) (S f) I ltac:(intros []) ltac:(lia)) as [(_ & E)|(NF & w0 & E & I0 & L0)];
    rewrite E in H1; cbn [kbind] in H1; [discriminate|].
  destruct (krun hash enc handler hook leaves (S f) w0 (KSend c v)) as [w1'| |] eqn:E1; cbn [kbind] in H1; try discriminate.
  inversion H1; subst w1'. clear H1.
  assert (NC : mod_at b c = None).
  { destruct (mod_at b c) eqn:X; [|reflexivity]. exfalso. apply NF. cbn [fault]. fold b. left. rewrite X. discriminate. }
  assert (B0 : booked (k_log w0) = Book (mgr_at b) (bput (mod_at b) c (Some (d, g)))).
  { rewrite L0. change [KBegin (KModCopy c a); KEnd (KModCopy c a)] with ([KBegin (KModCopy c a)] ++ [KEnd (KModCopy c a)]).
    rewrite app_assoc, booked_snoc, booked_quiet by exact Logic.I. fold b. cbn [book_step]. rewrite HM. reflexivity. }
  assert (HM0 : mod_at (booked (k_log w0)) c = Some (d, g)) by (rewrite B0; apply bput_same).
  assert (AP0 : told_apart hash (booked (k_log w0)) (md_sends d)).
  { rewrite B0. intros x dx gx Ex Hx HE1 HE2. cbn [mod_at] in Hx. unfold bput in Hx. destruct (Pos.eq_dec x c) as [EX|NX].
    - inversion Hx; subst dx gx. apply (AP a d g Ex HM HE1 HE2).
    - apply (AP x dx gx Ex Hx HE1 HE2). }
  destruct (route_send hash enc HE handler hook leaves HL HH HK (S f) w0 c v w1 d g I0 HM0 AP0 E1) as (_ & f1 & r1 & LG1 & F1 & R1 & D1 & T1).
  destruct (route_send hash enc HE handler hook leaves HL HH HK fuel' w a v w2 d g I HM AP H2) as (_ & f2 & r2 & LG2 & F2 & R2 & D2 & T2).
  rewrite HLV in T1, T2.
  assert (FL : filter (hears (booked (k_log w0)) D) (listed (booked (k_log w0)) g) = filter (hears b D) (listed b g)).
  { rewrite B0. change (listed (Book (mgr_at b) (bput (mod_at b) c (Some (d, g)))) g) with (listed b g).
    apply filter_ext. intros x. unfold hears. cbn [mod_at]. unfold bput. destruct (Pos.eq_dec x c) as [EX|NX]; [|reflexivity].
    subst x. rewrite NC. unfold wants. destruct (in_dec _ _ _); [|reflexivity].
    destruct (mty_eq_dec (md_sends d) D) as [_|N]; [reflexivity|exfalso; apply N; reflexivity]. }
  fold D in T1, T2. rewrite FL in T1.
  exists (f1 ++ r1), (f2 ++ r2). split; [rewrite LG1, L0, <- app_assoc; reflexivity|]. split; [exact LG2|].
  split; [apply finished_app; assumption|]. split; [apply finished_app; assumption|].
  assert (SP : forall l1 l2, finished l1 -> kdirect 0 (l1 ++ l2) = kdirect 0 l1 ++ kdirect 0 l2).
  { intros l1 l2 FF. clear -FF. induction FF as [|g0 id bs l H IH|a0 D0 bs l H IH|c0 l l' H IH H' IH']; cbn [app kdirect Nat.eqb]; [reflexivity|rewrite IH; reflexivity|rewrite IH; reflexivity|].
    rewrite <- app_assoc. cbn [app]. rewrite !(finished_deep l H). cbn [kdirect pred]. exact IH'. }
  rewrite (SP f1 r1 F1), (SP f2 r2 F2), D1, D2, T1, T2. reflexivity.
Qed.
Example C110_ex_speaks :
  let w := k_w k_silent (k_setup ++ [KModCopy 14 12]%positive) in
  match krun k_sum k_enc k_silent k_mute k_same 20 w (KSend 14 5) with
   | KOk w' => map (fun e => match e with KRecv a _ _ => a | KHook g _ _ => g | _ => 99%positive end)
                   (kdirect 0 (removelast (skipn (S (length (k_log w))) (k_log w'))))
   | _ => [] end = [1; 11; 13]%positive.
Proof. vm_compute. reflexivity. Qed.

(** ** C111 *)
(** A copy of a manager keeps the modules listed when it was made, and reaches those. *)
Theorem C111_copy_keeps_its_list : forall hash enc handler hook leaves w g h n l f1 w1 f2 cs w2 f3 D v w3,
  (forall D v, length (enc D v) = ty_size D) ->
  (forall log g id bs, length (leaves log g id bs) = length bs) ->
  (forall log a D bs, kcalls sending (handler log a D bs)) -> (forall log g id bs, kcalls sending (hook log g id bs)) ->
  kreaches hash enc handler hook leaves w ->
  mgr_at (booked (k_log w)) g = Some (n, l) -> (forall a d m, mod_at (booked (k_log w)) a = Some (d, m) -> m <> h) ->
  krun hash enc handler hook leaves f1 w (KMgrCopy h g) = KOk w1 ->
  Forall (leaves_alone h) cs -> krun_all hash enc handler hook leaves f2 w1 cs = KOk w2 ->
  told_apart hash (booked (k_log w2)) D ->
  krun hash enc handler hook leaves f3 w2 (KMgrSend h D v) = KOk w3 ->
  exists evs, k_log w3 = k_log w2 ++ KBegin (KMgrSend h D v) :: evs ++ [KEnd (KMgrSend h D v)] /\ finished evs /\
    kdirect 0 evs = map (fun x => KRecv x D (enc D v)) (filter (hears (booked (k_log w2)) D) l).
Proof.
  intros hash enc handler hook leaves w g h n l f1 w1 f2 cs w2 f3 D v w3 HE HL HH HK HR EG NP H1 HC H2 AP H3.
  pose proof (reaches_inv hash enc handler hook leaves HL w HR) as I.
  destruct f1 as [|f1]; [discriminate|].
  destruct (others_defined hash enc handler hook leaves w (KMgrCopy h g) (S f1) I ltac:(intros []) ltac:(lia)) as [(_ & E)|(_ & w1' & E & I1 & L1)];
    rewrite E in H1; [discriminate|]. inversion H1; subst w1'. clear H1.
  assert (B1 : booked (k_log w1) = Book (bput (mgr_at (booked (k_log w))) h (Some (n, l))) (mod_at (booked (k_log w)))).
  { rewrite L1. change [KBegin (KMgrCopy h g); KEnd (KMgrCopy h g)] with ([KBegin (KMgrCopy h g)] ++ [KEnd (KMgrCopy h g)]).
    rewrite app_assoc, booked_snoc, booked_quiet by exact Logic.I. cbn [book_step]. rewrite EG. reflexivity. }
  assert (WK : forall b, kcalls sending b -> kcalls (leaves_alone h) b).
  { induction 1 as [|c k S1 _ IH]; constructor; [destruct c; try destruct S1; exact Logic.I|exact IH]. }
  pose proof (frozen_safe hash enc handler hook leaves HL f2 cs w1 h (n, l)
                (fun log a D bs => WK _ (HH log a D bs)) (fun log g id bs => WK _ (HK log g id bs)) HC I1) as FS.
  rewrite H2 in FS. destruct FS as (I2 & FZ & _).
  { split; [rewrite B1; apply bput_same|]. intros a d m. rewrite B1. apply NP. }
  destruct (route_mgr hash enc HE handler hook leaves HL HH HK f3 w2 h D v w3 I2 AP H3) as (_ & evs & A & B & C).
  exists evs. split; [exact A|]. split; [exact B|]. unfold listed in C. rewrite FZ in C. exact C.
Qed.
(** 16 is constructed on manager 1 after its copy 3 was made: it hears 12, but not 3. *)
Example C111_ex_copy :
  let w := k_w k_silent (k_setup ++ [KModEnd 11; KMgrCopy 3 1; KMod 16 kd1 1]%positive) in
  let got c := match krun k_sum k_enc k_silent k_mute k_same 20 w c with
               | KOk w' => map (fun e => match e with KRecv a _ _ => a | _ => 1%positive end)
                               (kdirect 0 (removelast (skipn (S (length (k_log w))) (k_log w'))))
               | _ => [] end in
  (got (KMgrSend 3 kt2 5), got (KSend 12 5)) = ([13], [1; 13; 16])%positive.
Proof. vm_compute. reflexivity. Qed.

(** It also keeps modules that have ended: sending through it is then undefined. *)
Theorem C111_copy_dangles : forall hash enc handler hook leaves w g h n l x f1 w1 f2 cs w2 D v,
  (forall log g id bs, length (leaves log g id bs) = length bs) ->
  (forall log a D bs, handler log a D bs = KReturn) -> (forall log g id bs, hook log g id bs = KReturn) ->
  kreaches hash enc handler hook leaves w ->
  mgr_at (booked (k_log w)) g = Some (n, l) -> (forall a d m, mod_at (booked (k_log w)) a = Some (d, m) -> m <> h) ->
  krun hash enc handler hook leaves f1 w (KMgrCopy h g) = KOk w1 ->
  Forall (leaves_alone h) cs -> krun_all hash enc handler hook leaves f2 w1 cs = KOk w2 ->
  exists F, forall fuel, (F <= fuel)%nat ->
    ((forall x, In x l -> mod_at (booked (k_log w2)) x <> None) ->
     exists w3, krun hash enc handler hook leaves fuel w2 (KMgrSend h D v) = KOk w3) /\
    (In x l -> mod_at (booked (k_log w2)) x = None ->
     exists log, krun hash enc handler hook leaves fuel w2 (KMgrSend h D v) = KUB log).
Proof.
  intros hash enc handler hook leaves w g h n l x f1 w1 f2 cs w2 D v HL HH HK HR EG NP H1 HC H2.
  pose proof (reaches_inv hash enc handler hook leaves HL w HR) as I.
  destruct f1 as [|f1]; [discriminate|].
  destruct (others_defined hash enc handler hook leaves w (KMgrCopy h g) (S f1) I ltac:(intros []) ltac:(lia)) as [(_ & E)|(_ & w1' & E & I1 & L1)];
    rewrite E in H1; [discriminate|]. inversion H1; subst w1'. clear H1.
  assert (B1 : booked (k_log w1) = Book (bput (mgr_at (booked (k_log w))) h (Some (n, l))) (mod_at (booked (k_log w)))).
  { rewrite L1. change [KBegin (KMgrCopy h g); KEnd (KMgrCopy h g)] with ([KBegin (KMgrCopy h g)] ++ [KEnd (KMgrCopy h g)]).
    rewrite app_assoc, booked_snoc, booked_quiet by exact Logic.I. cbn [book_step]. rewrite EG. reflexivity. }
  pose proof (frozen_safe hash enc handler hook leaves HL f2 cs w1 h (n, l)) as FS.
  assert (QH : forall log a D bs, kcalls (leaves_alone h) (handler log a D bs)) by (intros; rewrite HH; constructor).
  assert (QK : forall log g id bs, kcalls (leaves_alone h) (hook log g id bs)) by (intros; rewrite HK; constructor).
  specialize (FS QH QK HC I1). rewrite H2 in FS. destruct FS as (I2 & FZ & _).
  { split; [rewrite B1; apply bput_same|]. intros a d m. rewrite B1. apply NP. }
  destruct (quiet_defined hash enc handler hook leaves HL HH HK w2 (KMgrSend h D v) I2) as [F HF].
  exists F. intros fuel LF. destruct (HF fuel LF) as [A B]. cbn [fault] in A, B. unfold broken in A, B. rewrite FZ in A, B. split.
  - intros H. apply A. intros (y & Hy & N). apply (H y Hy N).
  - intros HX N. apply B. exists x. tauto.
Qed.
Example C111_ex_dangles :
  (match k_ex k_silent (k_setup ++ [KMgrCopy 3 1; KMgrSend 3 kt1 5]%positive) with KOk _ => true | _ => false end,
   match k_ex k_silent (k_setup ++ [KMgrCopy 3 1; KModEnd 12; KMgrSend 3 kt1 5]%positive) with KUB _ => true | _ => false end,
   match k_ex k_silent (k_setup ++ [KMgrCopy 3 1; KModEnd 12; KMgrSend 1 kt1 5]%positive) with KOk _ => true | _ => false end)
  = (true, true, true).
Proof. vm_compute. reflexivity. Qed.

(** A manager that is assigned to forgets its own modules, which still speak through it:
    to the modules of the other one. *)
Theorem C111_assigned : forall hash enc handler hook leaves w g h a d v fuel w',
  (forall D v, length (enc D v) = ty_size D) ->
  (forall log g id bs, leaves log g id bs = bs) ->
  (forall log a D bs, kcalls sending (handler log a D bs)) -> (forall log g id bs, kcalls sending (hook log g id bs)) ->
  kreaches hash enc handler hook leaves w ->
  mod_at (booked (k_log w)) a = Some (d, g) -> told_apart hash (booked (k_log w)) (md_sends d) ->
  krun_all hash enc handler hook leaves fuel w [KMgrAssign g h; KSend a v] = KOk w' ->
  exists evs,
    k_log w' = k_log w ++ [KBegin (KMgrAssign g h); KEnd (KMgrAssign g h)] ++ KBegin (KSend a v) :: evs ++ [KEnd (KSend a v)] /\
    finished evs /\
    kdirect 0 evs = KHook g (hash (ty_name (md_sends d))) (enc (md_sends d) v) ::
      map (fun x => KRecv x (md_sends d) (enc (md_sends d) v))
          (filter (hears (booked (k_log w)) (md_sends d)) (listed (booked (k_log w)) h)).
Proof.
  intros hash enc handler hook leaves w g h a d v fuel w' HE HLV HH HK HR HM AP H.
  assert (HL : forall log g id bs, length (leaves log g id bs) = length bs) by (intros; rewrite HLV; reflexivity).
  pose proof (reaches_inv hash enc handler hook leaves HL w HR) as I.
  destruct fuel as [|f]; [discriminate|]. cbn [krun_all] in H.
  destruct (others_defined hash enc handler hook leaves w (KMgrAssign g h) (S f) I ltac:(intros []) ltac:(lia)) as [(_ & E)|(NF & w0 & E & I0 & L0)];
    rewrite E in H; cbn [kbind] in H; [discriminate|].
  destruct (krun hash enc handler hook leaves (S f) w0 (KSend a v)) as [w1| |] eqn:E1; cbn [kbind] in H; try discriminate.
  inversion H; subst w1. clear H.
  assert (B0 : booked (k_log w0) = Book (bput (mgr_at (booked (k_log w))) g (mgr_at (booked (k_log w)) h)) (mod_at (booked (k_log w)))).
  { rewrite L0. change [KBegin (KMgrAssign g h); KEnd (KMgrAssign g h)] with ([KBegin (KMgrAssign g h)] ++ [KEnd (KMgrAssign g h)]).
    rewrite app_assoc, booked_snoc, booked_quiet by exact Logic.I. reflexivity. }
  assert (HM0 : mod_at (booked (k_log w0)) a = Some (d, g)) by (rewrite B0; exact HM).
  assert (AP0 : told_apart hash (booked (k_log w0)) (md_sends d)) by (rewrite B0; exact AP).
  destruct (route_send hash enc HE handler hook leaves HL HH HK (S f) w0 a v w' d g I0 HM0 AP0 E1) as (_ & f1 & r1 & LG & F1 & R1 & D1 & T1).
  rewrite HLV in T1. exists (f1 ++ r1). split; [rewrite LG, L0, <- app_assoc; reflexivity|].
  split; [apply finished_app; assumption|].
  assert (SP : forall l1 l2, finished l1 -> kdirect 0 (l1 ++ l2) = kdirect 0 l1 ++ kdirect 0 l2).
  { intros l1 l2 FF. clear -FF. induction FF as [|g0 id bs l H IH|a0 D0 bs l H IH|c0 l l' H IH H' IH']; cbn [app kdirect Nat.eqb]; [reflexivity|rewrite IH; reflexivity|rewrite IH; reflexivity|].
    rewrite <- app_assoc. cbn [app]. rewrite !(finished_deep l H). cbn [kdirect pred]. exact IH'. }
  rewrite (SP f1 r1 F1), D1, T1, B0. unfold listed at 1. cbn [mgr_at]. rewrite bput_same. reflexivity.
Qed.
Example C111_ex_assigned :
  let w := k_w k_silent (k_setup ++ [KMgrAssign 1 2]%positive) in
  match krun k_sum k_enc k_silent k_mute k_same 20 w (KSend 12 5) with
   | KOk w' => map (fun e => match e with KRecv a _ _ => a | KHook g _ _ => g | _ => 99%positive end)
                   (kdirect 0 (removelast (skipn (S (length (k_log w))) (k_log w'))))
   | _ => [] end = [1; 21]%positive.
Proof. vm_compute. reflexivity. Qed.

Print Assumptions C109_undefined_means.
Print Assumptions C109_only_live_handlers.
Print Assumptions C109_defined_exactly.
Print Assumptions C109_lifetimes_exactly.
Print Assumptions C109_no_dangling.
Print Assumptions C109_manager_first.
Print Assumptions C109_redirected.
Print Assumptions C110_message.
Print Assumptions C110_manager_message.
Print Assumptions C110_copies_never_hear.
Print Assumptions C110_ending_a_copy.
Print Assumptions C110_copy_speaks.
Print Assumptions C111_copy_keeps_its_list.
Print Assumptions C111_copy_dangles.
Print Assumptions C111_assigned.
