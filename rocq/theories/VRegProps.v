(** A value observable whose observeds and functions change while other threads use it. *)
From Verif Require Import VRegProofs2.
From Verif Require Export VRegSpec.

Section P.
  Variable t : ity.
  Variable Max : Z.
  Variable upd : list vev -> addr -> Z -> vbody.
  Variable disc : list vev -> addr -> vbody.
  Hypothesis T : ity_ok t.
  Notation reaches := (vreaches t Max upd disc).
  Notation rrun := (rrun t).

(** ** C140 (violated by the code: nothing but the values is atomic) *)

(** A call nobody interrupts is made as in single-threaded use. *)
Theorem C140_alone w i c l m' es :
  r_thr w i = prog t Max (c :: l) -> alone t Max (r_mem w) c = Ok (m', es) ->
  exists k w', rrun w (repeat i k) = ROk w' /\ r_mem w' = m' /\ r_thr w' i = prog t Max l /\
    (forall j, j <> i -> r_thr w' j = r_thr w j) /\ r_log w' = r_log w ++ map (pair i) es.
Proof. intros E A. destruct (call_sched t Max w i c l m' es E A) as (k & w' & R & [A1 A2 A3 A4]). exists k, w'. auto. Qed.

(** Two registrations, both reported as made: the first observed is not registered, and keeps
    its value whatever the observable is set to afterwards. *)
Theorem C140_lost_add_refuted w0 fn st i j o1 o2 :
  reaches w0 -> i <> j -> (length (vmembers (v_log w0)) < max_observers Max)%nat ->
  ~ In o1 (vmembers (v_log w0)) -> ~ In o2 (vmembers (v_log w0)) -> o1 <> o2 ->
  exists s w, rrun (rstart t Max (mem_of fn st w0) (two i j (RC (VAdd o1)) (RC (VAdd o2)))) s = ROk w /\ all_done w /\
    r_log w = [(i, RRet (RC (VAdd o1)) (RErr ok)); (j, RRet (RC (VAdd o2)) (RErr ok))] /\
    (exists m, alone t Max (r_mem w) (RC (VRemove o1)) = Ok (m, [RRet (RC (VRemove o1)) (RErr not_found)])) /\
    forall op, ~ overflows t (v_val w0) op ->
      exists m p, publishes t (v_val w0) op p /\
        alone t Max (r_mem w) (RC (VOp op))
        = Ok (m, RApplied op :: informed fn (vmembers (v_log w0) ++ [o2]) p ++ [RRet (RC (VOp op)) (RVal p)]) /\
        r_mirror m o1 = v_mirror w0 o1 /\ r_mirror m o2 = p.
Proof.
  intros R N L N1 N2 NE. destruct (reach_mem t Max fn st upd disc w0 T R) as (tl & EM & LT & _). rewrite EM.
  destruct tl as [|x tl]; [cbn in LT; lia|].
  destruct (lost_add t Max fn st (v_val w0) (v_mirror w0) _ x tl i j o1 o2 N L N1 N2) as (s & w & RW & D & EL & EW).
  assert (LN : (length (vmembers (v_log w0) ++ [o2]) <= max_observers Max)%nat) by (rewrite app_length; cbn; lia).
  assert (NI : ~ In o1 (vmembers (v_log w0) ++ [o2])).
  { intros H. apply in_app_or in H. destruct H as [H|[H|[]]]; [contradiction|congruence]. }
  exists s, w. split; [exact RW|]. split; [exact D|]. split; [exact EL|]. rewrite EW.
  split; [apply alone_remove_none; [exact LN|exact NI]|]. intros op NO. destruct (publish t _ op T NO) as (p & EP & P).
  destruct (alone_op t Max fn st _ (v_mirror w0) (vmembers (v_log w0) ++ [o2]) tl op p EP LN) as (m & A & EMI).
  exists m, p. split; [exact P|]. split; [exact A|]. rewrite EMI. split; [apply mirrors_out, NI|].
  apply mirrors_in. apply in_or_app. right. left. reflexivity.
Qed.
(** Two registrations with room for one: the second writes behind the array. *)
Theorem C140_overflow_refuted w0 fn st i j o1 o2 :
  reaches w0 -> i <> j -> S (length (vmembers (v_log w0))) = max_observers Max ->
  ~ In o1 (vmembers (v_log w0)) -> ~ In o2 (vmembers (v_log w0)) ->
  exists s, rrun (rstart t Max (mem_of fn st w0) (two i j (RC (VAdd o1)) (RC (VAdd o2)))) s = RUndef.
Proof.
  intros R N L N1 N2. destruct (reach_mem t Max fn st upd disc w0 T R) as (tl & EM & LT & _). rewrite EM.
  destruct tl as [|x [|y tl]]; cbn [length] in LT; try lia. apply overflow; assumption.
Qed.
(** The last observed removed during an update: it stores the value, and its function is
    called, after its removal has been reported. *)
Theorem C140_told_after_removal_refuted w0 fn st p o i j op :
  reaches w0 -> i <> j -> vmembers (v_log w0) = p ++ [o] -> ~ overflows t (v_val w0) op ->
  exists s w q, publishes t (v_val w0) op q /\
    rrun (rstart t Max (mem_of fn st w0) (two i j (RC (VOp op)) (RC (VRemove o)))) s = ROk w /\ all_done w /\
    before (r_log w) (j, RRet (RC (VRemove o)) (RErr ok)) (i, RStored o q) /\
    forall f, fn o = Some f -> before (r_log w) (j, RRet (RC (VRemove o)) (RErr ok)) (i, RCalled o f q).
Proof.
  intros R N E NO. destruct (reach_mem t Max fn st upd disc w0 T R) as (tl & EM & LT & ND). rewrite EM, E in *.
  destruct (publish t _ op T NO) as (q & EP & P).
  destruct (late_call t Max fn st (v_val w0) (v_mirror w0) p o tl i j op q N ND ltac:(lia) EP) as (s & w & RW & D & EL).
  exists s, w, q. split; [exact P|]. split; [exact RW|]. split; [exact D|]. rewrite EL, app_assoc. split; [|intros f F]; apply before_app.
  - apply in_or_app. right. left. reflexivity.
  - apply in_map. apply in_or_app. left. apply informed_stored. left. reflexivity.
  - apply in_or_app. right. left. reflexivity.
  - apply in_map. apply in_or_app. left. apply informed_called; [left; reflexivity|exact F].
Qed.
(** clear_observers() during an update: every observed is told the value after it was
    disconnected and clear_observers() has returned. *)
Theorem C140_told_after_clear_refuted w0 fn st i j op :
  reaches w0 -> i <> j -> ~ overflows t (v_val w0) op ->
  exists s w q, publishes t (v_val w0) op q /\
    rrun (rstart t Max (mem_of fn st w0) (two i j (RC (VOp op)) (RC VClear))) s = ROk w /\ all_done w /\
    forall o, In o (vmembers (v_log w0)) ->
      before (r_log w) (j, RDisced o) (i, RStored o q) /\ before (r_log w) (j, RRet (RC VClear) RUnit) (i, RStored o q) /\
      forall f, fn o = Some f -> before (r_log w) (j, RRet (RC VClear) RUnit) (i, RCalled o f q).
Proof.
  intros R N NO. destruct (reach_mem t Max fn st upd disc w0 T R) as (tl & EM & LT & ND). rewrite EM in *.
  destruct (publish t _ op T NO) as (q & EP & P).
  destruct (told_cleared t Max fn st (v_val w0) (v_mirror w0) (vmembers (v_log w0)) tl i j op q N ltac:(lia) EP) as (s & w & RW & D & _ & EL).
  exists s, w, q. split; [exact P|]. split; [exact RW|]. split; [exact D|]. intros o HO. rewrite EL.
  assert (HR : In (j, RRet (RC VClear) RUnit) ((i, RApplied op) :: map (pair j) (map RDisced (vmembers (v_log w0)) ++ [RRet (RC VClear) RUnit]))).
  { right. apply in_map. apply in_or_app. right. left. reflexivity. }
  assert (HS : In (i, RStored o q) (map (pair i) (informed fn (vmembers (v_log w0)) q ++ [RRet (RC (VOp op)) (RVal q)]))).
  { apply in_map. apply in_or_app. left. apply informed_stored, HO. }
  rewrite app_comm_cons. split; [|split; [|intros f F]]; apply before_app; try assumption.
  - right. apply in_map. apply in_or_app. left. apply in_map, HO.
  - apply in_map. apply in_or_app. left. apply informed_called; assumption.
Qed.
(** The first observed removed during an update: the second, registered all the time, keeps its
    old value although the operator has returned, and the last is told twice. *)
Theorem C140_left_behind_refuted w0 fn st o1 o2 l i j op :
  reaches w0 -> i <> j -> vmembers (v_log w0) = o1 :: o2 :: l -> l <> [] -> ~ overflows t (v_val w0) op ->
  exists s w q, publishes t (v_val w0) op q /\
    rrun (rstart t Max (mem_of fn st w0) (two i j (RC (VOp op)) (RC (VRemove o1)))) s = ROk w /\ all_done w /\
    of_thread i (r_log w) = RApplied op :: informed fn (o1 :: l ++ [last l o2]) q ++ [RRet (RC (VOp op)) (RVal q)] /\
    of_thread j (r_log w) = [RRet (RC (VRemove o1)) (RErr ok)] /\
    r_mirror (r_mem w) o2 = v_mirror w0 o2 /\
    forall op', ~ overflows t (r_val (r_mem w)) op' ->
      exists m p, alone t Max (r_mem w) (RC (VOp op'))
                  = Ok (m, RApplied op' :: informed fn (o2 :: l) p ++ [RRet (RC (VOp op')) (RVal p)]).
Proof.
  intros R N E NE NO. destruct (reach_mem t Max fn st upd disc w0 T R) as (tl & EM & LT & ND). rewrite EM, E in *.
  destruct (publish t _ op T NO) as (q & EP & P).
  destruct (missed t Max fn st (v_val w0) (v_mirror w0) o1 o2 l tl i j op q N ND NE ltac:(lia) EP) as (s & w & RW & D & EL & EW).
  exists s, w, q. split; [exact P|]. split; [exact RW|]. split; [exact D|].
  assert (NI : ~ In o2 (l ++ [last l o2])).
  { inversion ND as [|? ? _ ND2]; subst. inversion ND2 as [|? ? NL _]; subst. intros H. apply in_app_or in H. destruct H as [H|[H|[]]]; [contradiction|].
    apply NL. rewrite <- H. clear - NE. destruct l as [|z l]; [congruence|]. clear. revert z. induction l as [|a l IH]; intros z; [left; reflexivity|].
    right. apply IH. }
  assert (N12 : o1 <> o2) by (inversion ND as [|? ? H _]; subst; intros ->; apply H; left; reflexivity).
  split; [|split; [|split]].
  - rewrite EL. change [(j, RRet (RC (VRemove o1)) (RErr ok))] with (map (pair j) [RRet (RC (VRemove o1)) (RErr ok)]).
    rewrite !of_thread_app, !of_thread_own, of_thread_other by auto. cbn [app]. unfold informed. cbn [flat_map]. rewrite app_nil_r, <- app_assoc. reflexivity.
  - rewrite EL. change [(j, RRet (RC (VRemove o1)) (RErr ok))] with (map (pair j) [RRet (RC (VRemove o1)) (RErr ok)]).
    rewrite !of_thread_app, of_thread_own, !of_thread_other by auto. reflexivity.
  - rewrite EW. cbn [r_mirror]. rewrite !mirrors_out; [reflexivity| |exact NI]. intros [H|[]]. congruence.
  - rewrite EW. cbn [r_val]. intros op' NO'. destruct (publish t _ op' T NO') as (p & EP' & P').
    destruct (alone_op t Max fn st (apply_atomic t (v_val w0) op) (mirrors (mirrors (v_mirror w0) [o1] q) (l ++ [last l o2]) q) (o2 :: l)
                (Some (last l o2) :: tl) op' p EP' ltac:(cbn [length] in *; lia)) as (m & A & _).
    exists m, p. exact A.
Qed.
(** on_update(nullptr) between an update's test of the function and its call ends the program. *)
Theorem C140_function_taken_refuted w0 fn st o f i j op :
  reaches w0 -> i <> j -> In o (vmembers (v_log w0)) -> fn o = Some f -> ~ overflows t (v_val w0) op ->
  exists s, rrun (rstart t Max (mem_of fn st w0) (two i j (RC (VOp op)) (RFun o None))) s = RDead.
Proof.
  intros R N HO F NO. destruct (reach_mem t Max fn st upd disc w0 T R) as (tl & EM & LT & ND). rewrite EM.
  apply in_split in HO. destruct HO as (p & l & E). rewrite E in *. destruct (publish t _ op T NO) as (q & EP & _).
  apply (fun_taken t Max fn st _ _ p o l tl i j op q f N ltac:(lia) EP F).
Qed.
(** on_update while the function runs destroys the function it runs. *)
Theorem C140_function_replaced_refuted w0 fn st o f g i j op :
  reaches w0 -> i <> j -> In o (vmembers (v_log w0)) -> fn o = Some f -> ~ overflows t (v_val w0) op ->
  exists s, rrun (rstart t Max (mem_of fn st w0) (two i j (RC (VOp op)) (RFun o g))) s = RUndef.
Proof.
  intros R N HO F NO. destruct (reach_mem t Max fn st upd disc w0 T R) as (tl & EM & LT & ND). rewrite EM.
  apply in_split in HO. destruct HO as (p & l & E). rewrite E in *. destruct (publish t _ op T NO) as (q & EP & _).
  apply (fun_replaced t Max fn st _ _ p o l tl i j op q f g N ltac:(lia) EP F).
Qed.
(** A call that changes the number of observeds races with every call of the observable;
    on_update races with every update of the observable its observed is registered with, and
    with another on_update. *)
Theorem C140_races w0 fn st i j a b :
  reaches w0 -> i <> j -> fits t (v_val w0) b ->
  (exists m es c, alone t Max (mem_of fn st w0) a = Ok (m, es) /\ r_cnt m <> v_cnt w0 /\ b = RC c) \/
  (exists o f op, a = RFun o f /\ In o (vmembers (v_log w0)) /\ b = RC (VOp op)) \/
  (exists o f g, a = RFun o f /\ b = RFun o g) ->
  exists s w, rrun (rstart t Max (mem_of fn st w0) (two i j a b)) s = ROk w /\ data_race w.
Proof.
  intros R N F [(m & es & c & A & C & ->)|[(o & f & op & -> & HO & ->)|(o & f & g & -> & ->)]].
  - apply (race_count t Max _ a c i j m es N A C F).
  - destruct (reach_mem t Max fn st upd disc w0 T R) as (tl & EM & LT & ND). rewrite EM.
    apply in_split in HO. destruct HO as (p & l & E). rewrite E in *. destruct (publish t _ op T F) as (q & EP & _).
    apply (race_fun_op t Max fn st _ _ p o l tl i j op q f N ltac:(lia) EP).
  - apply race_fun, N.
Qed.
End P.

(** ** Examples *)
Definition C140_u8 : ity := {| i_bits := 8; i_signed := false |}.
Definition C140_calls : list vcall := [VOp (Assign 5); VAdd 11; VAdd 12; VRemove 11; VAdd 13; VAdd 11]%positive.
Definition C140_w0 (Max : Z) : vworld :=
  match vrun_all C140_u8 Max (fun _ _ _ => VReturn) (fun _ _ => VReturn) 1 (vfresh Max (fun _ => 0)) C140_calls with Ok w => w | _ => vfresh Max (fun _ => 0) end.
Definition C140_fn (o : addr) : option nat := if Pos.eqb o 13 then Some 7%nat else None.
Definition C140_m (Max : Z) : rmem := mem_of C140_fn (fun _ => 0%nat) (C140_w0 Max).
(** What is seen of a run: its log and the values of three observeds; or how it ended. *)
Definition C140_view (r : rout rworld) : rout (list (nat * rvev) * list Z) :=
  match r with
  | ROk w => ROk (r_log w, map (r_mirror (r_mem w)) [11; 12; 13; 21; 22]%positive)
  | RUndef => RUndef
  | RDead => RDead
  end.
Example C140_ex_reaches : forall Max, In Max [3; 4; 8] ->
  vreaches C140_u8 Max (fun _ _ _ => VReturn) (fun _ _ => VReturn) (C140_w0 Max) /\
  vmembers (v_log (C140_w0 Max)) = [12; 13; 11]%positive /\ v_val (C140_w0 Max) = 5 /\
  ~ overflows C140_u8 5 (AddEq 3) /\ ~ In 21%positive (vmembers (v_log (C140_w0 Max))).
Proof.
  intros Max [<-|[<-|[<-|[]]]]; (split; [exists (fun _ => 0), 1%nat, C140_calls; vm_compute; reflexivity|]);
    (split; [vm_compute; reflexivity|]); (split; [vm_compute; reflexivity|]); (split; [|vm_compute; intuition discriminate]);
    intros [_ H]; apply H; vm_compute; split; discriminate.
Qed.
(** Two registrations of which one is lost; with room for one. *)
Example C140_ex :
  C140_view (rrun C140_u8 (rstart C140_u8 8 (C140_m 8) (two 0 1 (RC (VAdd 21)) (RC (VAdd 22)))) (repeat 0%nat 6 ++ repeat 1%nat 9 ++ repeat 0%nat 3))%positive
  = ROk ([(1%nat, RRet (RC (VAdd 22)) (RErr ok)); (0%nat, RRet (RC (VAdd 21)) (RErr ok))]%positive, [0; 0; 0; 0; 0]) /\
  C140_view (rrun C140_u8 (rstart C140_u8 4 (C140_m 4) (two 0 1 (RC (VAdd 21)) (RC (VAdd 22)))) (repeat 0%nat 5 ++ repeat 1%nat 9 ++ repeat 0%nat 3))%positive
  = RUndef.
Proof. split; vm_compute; reflexivity. Qed.
(** 12 removed during += 3: 13 keeps 0, 11 is told twice. *)
Example C140_ex_left_behind :
  C140_view (rrun C140_u8 (rstart C140_u8 3 (C140_m 3) (two 0 1 (RC (VOp (AddEq 3))) (RC (VRemove 12)))) (repeat 0%nat 6 ++ repeat 1%nat 12 ++ repeat 0%nat 9))%positive
  = ROk ([(0%nat, RApplied (AddEq 3)); (0%nat, RStored 12 8); (1%nat, RRet (RC (VRemove 12)) (RErr ok)); (0%nat, RStored 11 8); (0%nat, RStored 11 8);
          (0%nat, RRet (RC (VOp (AddEq 3))) (RVal 8))]%positive, [8; 8; 0; 0; 0]).
Proof. vm_compute. reflexivity. Qed.
(** 13's function taken away between the test and the call, and while it runs. *)
Example C140_ex_function :
  C140_view (rrun C140_u8 (rstart C140_u8 3 (C140_m 3) (two 0 1 (RC (VOp (AddEq 3))) (RFun 13 None))) (repeat 0%nat 9 ++ repeat 1%nat 2 ++ [0%nat]))%positive = RDead /\
  C140_view (rrun C140_u8 (rstart C140_u8 3 (C140_m 3) (two 0 1 (RC (VOp (AddEq 3))) (RFun 13 (Some 8%nat)))) (repeat 0%nat 10 ++ repeat 1%nat 2 ++ [0%nat]))%positive = RUndef /\
  C140_view (rrun C140_u8 (rstart C140_u8 3 (C140_m 3) (two 0 1 (RC (VOp (AddEq 3))) (RFun 13 (Some 8%nat)))) (repeat 1%nat 2 ++ repeat 0%nat 20))%positive
  = ROk ([(1%nat, RRet (RFun 13 (Some 8%nat)) RUnit); (0%nat, RApplied (AddEq 3)); (0%nat, RStored 12 8); (0%nat, RStored 13 8); (0%nat, RCalled 13 8 8);
          (0%nat, RStored 11 8); (0%nat, RRet (RC (VOp (AddEq 3))) (RVal 8))]%positive, [8; 8; 8; 0; 0]).
Proof. split; [|split]; vm_compute; reflexivity. Qed.

Print Assumptions C140_alone.
Print Assumptions C140_lost_add_refuted.
Print Assumptions C140_overflow_refuted.
Print Assumptions C140_told_after_removal_refuted.
Print Assumptions C140_told_after_clear_refuted.
Print Assumptions C140_left_behind_refuted.
Print Assumptions C140_function_taken_refuted.
Print Assumptions C140_function_replaced_refuted.
Print Assumptions C140_races.
