(** Properties C28-C35 and C88-C92 of xitren::comm::values::observable. *)
From Verif Require Import ValuesProofs6.

(** Example ingredients. *)
Definition u8 : ity := {| i_bits := 8; i_signed := false |}.
Definition s32 : ity := {| i_bits := 32; i_signed := true |}.
Definition no_upd (log : list vev) (o : addr) (n : Z) : vbody := VReturn.
Definition no_disc (log : list vev) (o : addr) : vbody := VReturn.
Definition zeros (o : addr) : Z := 0.
(** A callback that caps the value at 100. *)
Definition clamp (log : list vev) (o : addr) (n : Z) : vbody :=
  if 100 <? n then VDo (VOp (Assign 100)) (fun _ => VReturn) else VReturn.
Definition vat (t : ity) upd (calls : list vcall) : vworld :=
  match vrun_all t 3 upd no_disc 9 (vfresh 3 zeros) calls with Ok w => w | _ => vfresh 3 zeros end.
Lemma vat_reaches t upd calls :
  (match vrun_all t 3 upd no_disc 9 (vfresh 3 zeros) calls with Ok _ => true | _ => false end) = true ->
  vreaches t 3 upd no_disc (vat t upd calls).
Proof.
  unfold vreaches, vat. intros H. exists zeros, 9%nat, calls.
  destruct (vrun_all t 3 upd no_disc 9 (vfresh 3 zeros) calls); [reflexivity|discriminate|discriminate].
Qed.

(** ** C28 *)
(** Callbacks may do anything with the observable, also change it. *)
Theorem C28_value_wraps : forall t Max upd disc w,
  ity_ok t -> vreaches t Max upd disc w -> value w = conv t (math_value (v_log w)).
Proof. intros t Max upd disc w T R. exact (vi_val _ _ _ (vreach_inv t Max T upd disc w R)). Qed.

(** With callbacks that leave it alone: the value is determined by the calls made. *)
Theorem C28_value_of_calls : forall t Max upd disc f m calls w,
  ity_ok t -> passive upd -> passive_disc disc ->
  vrun_all t Max upd disc f (vfresh Max m) calls = Ok w ->
  value w = conv t (fold_left call_math calls 0).
Proof.
  intros t Max upd disc f m calls w T P1 P2 E.
  apply (history_value t Max upd disc T P1 P2 f calls (vfresh Max m) w 0); [apply vinv_fresh, T| |exact E].
  exact (vi_val t Max _ (vinv_fresh t Max T m)).
Qed.

(** [conv] is the wrap-around: in range and congruent modulo 2^width. *)
Theorem C28_conv_is_wrap : forall t x, ity_ok t ->
  lo t <= conv t x <= hi t /\ (exists k, conv t x = x + k * 2 ^ i_bits t) /\
  (lo t <= x <= hi t -> conv t x = x).
Proof.
  intros t x T. split; [apply conv_range, T|]. split; [apply conv_diff, T|]. apply conv_id, T.
Qed.

Example C28_ex :
  vreaches u8 3 clamp no_disc (vat u8 clamp [VAdd 7; VOp (Assign 250); VOp (SubEq 101); VOp PreDec]) /\
  value (vat u8 clamp [VAdd 7; VOp (Assign 250); VOp (SubEq 101); VOp PreDec]) = 100 /\
  math_value (v_log (vat u8 clamp [VAdd 7; VOp (Assign 250); VOp (SubEq 101); VOp PreDec])) = 100 /\
  value (vat u8 no_upd [VAdd 7; VOp (Assign 250); VOp (AddEq 10); VOp PostInc]) = 5.
Proof. split; [apply vat_reaches; vm_compute; reflexivity|vm_compute; tauto]. Qed.

(** ** C29 *)
Theorem C29_observed_mirror : forall t Max upd disc f w op w' r,
  ity_ok t -> vreaches t Max upd disc w -> passive upd -> passive_disc disc ->
  faithful_op op = true -> vrun t Max upd disc f w (VOp op) = Ok (w', r) ->
  r = RVal (value w') /\
  value w' = conv t (math (value w) op) /\
  (forall o, In o (vmembers (v_log w)) -> v_mirror w' o = value w') /\
  (forall o, ~ In o (vmembers (v_log w)) -> v_mirror w' o = v_mirror w o) /\
  v_log w' = v_log w ++ Applied op :: map (fun o => Store o (value w')) (vmembers (v_log w))
             ++ [VRet (VOp op) r] /\
  NoDup (vmembers (v_log w)).
Proof.
  intros t Max upd disc f w op w' r T R P1 P2 F E.
  pose proof (vreach_inv t Max T upd disc w R) as I.
  destruct (passive_run t Max upd disc P1 P2 f w (VOp op) w' r I E) as (HL & HM & HV & p & -> & HP).
  assert (Hp : p = value w').
  { unfold value. rewrite HV. eapply published_faithful; eassumption. }
  subst p. split; [reflexivity|]. split; [unfold value at 1; rewrite HV; apply apply_math, T|].
  cbn [mirror_after effect] in HM, HL. rewrite HM.
  split; [intros o Ho; apply store_all_in, Ho|].
  split; [intros o Ho; apply store_all_out, Ho|].
  split; [exact HL|]. exact (vi_nodup _ _ _ I).
Qed.

(** It comes back, unless the addition overflows. *)
Theorem C29_operator_returns : forall t Max upd disc f w op,
  ity_ok t -> vreaches t Max upd disc w -> passive upd -> passive_disc disc ->
  ~ overflows t (value w) op ->
  exists w' r, vrun t Max upd disc (S f) w (VOp op) = Ok (w', r).
Proof.
  intros t Max upd disc f w op T R P1 P2 HO.
  apply (passive_total t Max upd disc P1 P2 f w (VOp op) (vreach_inv t Max T upd disc w R) HO).
Qed.

Example C29_ex :
  let w := vat u8 no_upd [VAdd 7; VAdd 8; VOp (Assign 200)] in
  vreaches u8 3 no_upd no_disc w /\ vmembers (v_log w) = [7; 8]%positive /\
  match vrun u8 3 no_upd no_disc 5 w (VOp (AddEq 100)) with
  | Ok (w', r) => r = RVal 44 /\ v_mirror w' 7%positive = 44 /\ v_mirror w' 9%positive = 0
  | _ => False
  end.
Proof. split; [apply vat_reaches; vm_compute; reflexivity|vm_compute; tauto]. Qed.

(** ** C30 *)
Theorem C30_decrement_and_postfix_refuted : forall t Max upd disc f w op w' r,
  ity_ok t -> vreaches t Max upd disc w -> passive upd -> passive_disc disc ->
  faithful_op op = false -> vrun t Max upd disc f w (VOp op) = Ok (w', r) ->
  value w' = conv t (math (value w) op) /\
  r = RVal (match op with PreDec => conv t (value w + 1) | _ => value w end) /\
  (forall o, In o (vmembers (v_log w)) -> RVal (v_mirror w' o) = r /\ v_mirror w' o <> value w').
Proof.
  intros t Max upd disc f w op w' r T R P1 P2 F E.
  pose proof (vreach_inv t Max T upd disc w R) as I.
  destruct (passive_run t Max upd disc P1 P2 f w (VOp op) w' r I E) as (HL & HM & HV & p & -> & HP).
  assert (EV : value w' = conv t (math (value w) op)) by (unfold value at 1; rewrite HV; apply apply_math, T).
  assert (HW : value w = conv t (value w)).
  { unfold value. rewrite (vi_val _ _ _ I). symmetry. apply conv_conv, T. }
  assert (Hp : p = match op with PreDec => conv t (value w + 1) | _ => value w end).
  { destruct op; cbn [faithful_op] in F; try discriminate; cbn [published] in HP.
    - eapply published_predec; eassumption.
    - inversion HP. reflexivity.
    - inversion HP. reflexivity. }
  split; [exact EV|]. split; [rewrite Hp; reflexivity|]. intros o Ho.
  cbn [mirror_after] in HM. rewrite HM, store_all_in by exact Ho. split; [reflexivity|].
  rewrite EV, Hp. pose proof (pow_ge t T) as G.
  assert (K : forall k d, -2 <= d <= 2 -> d <> 0 -> d <> k * 2 ^ i_bits t).
  { intros k d H1 H2. assert (k = 0 \/ 1 <= k \/ k <= -1) as [Hk|[Hk|Hk]] by lia; nia. }
  destruct op; cbn [faithful_op] in F; try discriminate; cbn [math]; intros H;
    [|rewrite HW in H at 1|rewrite HW in H at 1];
    apply conv_eq in H; try exact T; destruct H as [k H].
  - apply (K k 2); lia.
  - apply (K k (-1)); lia.
  - apply (K k 1); lia.
Qed.

Example C30_ex :
  let w := vat u8 no_upd [VAdd 7; VOp (Assign 5)] in
  vreaches u8 3 no_upd no_disc w /\
  match vrun u8 3 no_upd no_disc 5 w (VOp PreDec), vrun u8 3 no_upd no_disc 5 w (VOp PostInc) with
  | Ok (w1, r1), Ok (w2, r2) =>
      value w1 = 4 /\ r1 = RVal 6 /\ v_mirror w1 7%positive = 6 /\
      value w2 = 6 /\ r2 = RVal 5 /\ v_mirror w2 7%positive = 5
  | _, _ => False
  end.
Proof. split; [apply vat_reaches; vm_compute; reflexivity|vm_compute; tauto]. Qed.

(** ** C31 *)
(** The operator is undefined exactly when its own addition overflows. *)
Theorem C31_undefined_iff_overflow : forall t Max upd disc f w op,
  ity_ok t -> vreaches t Max upd disc w -> passive upd -> passive_disc disc ->
  (vrun t Max upd disc (S f) w (VOp op) = UB <-> overflows t (value w) op).
Proof.
  intros t Max upd disc f w op T R P1 P2.
  pose proof (vreach_inv t Max T upd disc w R) as I. split.
  - intros E. destruct (published_ub t (v_val w) op) as [[U1 U2] U3].
    destruct (published t (v_val w) op) as [p| |] eqn:EP; [|exact (U1 eq_refl)|congruence].
    exfalso. assert (HN : ~ overflows t (v_val w) op) by (intros H; specialize (U2 H); discriminate).
    destruct (passive_total t Max upd disc P1 P2 f w (VOp op) I HN) as (w' & r & E'). congruence.
  - intros H. cbn [vrun]. apply (proj2 (proj1 (published_ub t (v_val w) op))) in H. rewrite H. reflexivity.
Qed.

(** Whatever the callbacks do, nothing but signed overflow is undefined: types at
    least as wide as int and unsigned are always safe. *)
Theorem C31_unsigned_never_undefined : forall t Max upd disc f m calls,
  ity_ok t -> i_signed t = false -> 32 <= i_bits t ->
  vrun_all t Max upd disc f (vfresh Max m) calls <> UB.
Proof.
  intros t Max upd disc f m calls T HU HB.
  assert (NR : ~ risky t).
  { unfold risky, common. replace (i_bits t <? 32) with false by lia. rewrite HU. discriminate. }
  assert (H : forall w, vinv t Max w -> vrun_all t Max upd disc f w calls <> UB).
  { induction calls as [|c calls IH]; intros w I; cbn [vrun_all]; [discriminate|].
    pose proof (vrun_safe t Max T upd disc f w c I) as HS.
    destruct (vrun t Max upd disc f w c) as [[w1 r]| |]; cbn [bind vsafe2] in *;
      [apply IH, HS|contradiction|discriminate]. }
  apply H, vinv_fresh, T.
Qed.

(** Which operators can overflow. *)
Theorem C31_where_it_overflows : forall t x, ity_ok t -> lo t <= x <= hi t ->
  (i_bits t < 32 -> ~ overflows t x PreInc /\ ~ overflows t x PreDec) /\
  (32 <= i_bits t -> i_signed t = true ->
     (overflows t x PreInc <-> x = hi t) /\ (overflows t x PreDec <-> x = hi t) /\
     (forall n, overflows t x (AddEq n) <-> x + n < lo t \/ hi t < x + n) /\
     (forall n, overflows t x (SubEq n) <-> x - n < lo t \/ hi t < x - n)).
Proof.
  intros t x T HX. unfold overflows, common, in_ity. split.
  - intros HB. replace (i_bits t <? 32) with true by lia. cbn [i_signed].
    assert (B : - 2 ^ 31 <= x <= 2 ^ 31 - 2).
    { unfold lo, hi in HX. destruct T as [E|[E|[E|E]]]; rewrite E in *; destruct (i_signed t);
        try lia;
        repeat match goal with H : context[2 ^ ?k] |- _ => let v := eval vm_compute in (2 ^ k) in change (2 ^ k) with v in H end;
        repeat match goal with |- context[2 ^ ?k] => let v := eval vm_compute in (2 ^ k) in change (2 ^ k) with v end; lia. }
    unfold lo, hi. cbn [i_bits i_signed]. change (32 - 1) with 31.
    split; intros [_ H]; apply H; lia.
  - intros HB HS. replace (i_bits t <? 32) with false by lia. rewrite HS.
    repeat split; intros; try lia; try (intros [_ H]; lia);
    try (match goal with H : _ /\ _ |- _ => destruct H as [_ H] end); lia.
Qed.

Example C31_ex :
  let w := vat s32 no_upd [VAdd 7; VOp (Assign 2147483647)] in
  vreaches s32 3 no_upd no_disc w /\
  vrun s32 3 no_upd no_disc 5 w (VOp PreInc) = UB /\
  match vrun s32 3 no_upd no_disc 5 w (VOp PostInc) with
  | Ok (w', r) => value w' = -2147483648 | _ => False end /\
  overflows u8 200 (AddEq 2147483647) /\ ~ overflows u8 255 PreInc.
Proof.
  split; [apply vat_reaches; vm_compute; reflexivity|].
  split; [vm_compute; reflexivity|]. split; [vm_compute; reflexivity|].
  unfold overflows, in_ity. vm_compute. intuition congruence.
Qed.

(** ** C32 *)
Theorem C32_removed_gets_nothing : forall t Max upd disc f w o w1 calls w2,
  ity_ok t -> vreaches t Max upd disc w -> passive upd -> passive_disc disc ->
  vrun t Max upd disc f w (VRemove o) = Ok (w1, RErr ok) ->
  ~ In (VAdd o) calls -> vrun_all t Max upd disc f w1 calls = Ok w2 ->
  v_mirror w2 o = v_mirror w o /\
  exists evs, v_log w2 = v_log w ++ evs /\ forall n, ~ In (Store o n) evs.
Proof.
  intros t Max upd disc f w o w1 calls w2 T R P1 P2 E1 NA E2.
  pose proof (vreach_inv t Max T upd disc w R) as I.
  destruct (passive_run t Max upd disc P1 P2 f w (VRemove o) w1 _ I E1) as (HL & HM & _).
  pose proof (vrun_ext t Max T upd disc f w _ w1 _ I E1) as X.
  assert (NI : ~ In o (vmembers (v_log w1))).
  { rewrite HL. cbn [effect app]. rewrite vmembers_snoc. cbn [vmember_step]. apply remove_In. }
  destruct (stays_out t Max upd disc T P1 P2 f calls o w1 w2 (ve_inv _ _ _ _ X) NI NA E2) as (A & _ & evs & B & C).
  split; [rewrite A, HM; reflexivity|].
  exists (VRet (VRemove o) (RErr ok) :: evs). split.
  - rewrite B, HL, <- app_assoc. reflexivity.
  - intros n [H|H]; [discriminate|exact (C n H)].
Qed.

(** The others get the next update once each, in their order of registration. *)
Theorem C32_others_keep_receiving : forall t Max upd disc f w o w1 op w2 p,
  ity_ok t -> vreaches t Max upd disc w -> passive upd -> passive_disc disc ->
  vrun t Max upd disc f w (VRemove o) = Ok (w1, RErr ok) ->
  vrun t Max upd disc f w1 (VOp op) = Ok (w2, RVal p) ->
  In o (vmembers (v_log w)) /\ NoDup (remove Pos.eq_dec o (vmembers (v_log w))) /\
  v_log w2 = v_log w1 ++ Applied op
             :: map (fun x => Store x p) (remove Pos.eq_dec o (vmembers (v_log w)))
             ++ [VRet (VOp op) (RVal p)].
Proof.
  intros t Max upd disc f w o w1 op w2 p T R P1 P2 E1 E2.
  pose proof (vreach_inv t Max T upd disc w R) as I.
  destruct (passive_run t Max upd disc P1 P2 f w (VRemove o) w1 _ I E1) as (HL & _ & _ & HA).
  pose proof (vrun_ext t Max T upd disc f w _ w1 _ I E1) as X.
  destruct (passive_run t Max upd disc P1 P2 f w1 (VOp op) w2 _ (ve_inv _ _ _ _ X) E2) as (HL2 & _).
  assert (HM : vmembers (v_log w1) = remove Pos.eq_dec o (vmembers (v_log w))).
  { rewrite HL. cbn [effect app]. rewrite vmembers_snoc. reflexivity. }
  split; [|split].
  - unfold remove_answer in HA. destruct (in_dec Pos.eq_dec o (vmembers (v_log w))); [assumption|discriminate].
  - apply NoDup_rm. exact (vi_nodup _ _ _ I).
  - rewrite HL2. cbn [effect]. rewrite HM. reflexivity.
Qed.

(** Answers of add and remove, whatever callbacks did. *)
Theorem C32_add_remove_answers : forall t Max upd disc w p q,
  ity_ok t -> vreaches t Max upd disc w ->
  (forall o r, v_log w = p ++ VRet (VAdd o) r :: q ->
     r = RErr (add_answer (max_observers Max) (vmembers p) o)) /\
  (forall o r, v_log w = p ++ VRet (VRemove o) r :: q ->
     r = RErr (remove_answer (vmembers p) o)).
Proof.
  intros t Max upd disc w p q T R. pose proof (vi_good _ _ _ (vreach_inv t Max T upd disc w R)) as G.
  split; intros o r E; exact (vgood_split Max _ G p _ q E).
Qed.

(** clear_observers: each registered observed is disconnected once, in order, and no
    operator reaches anyone afterwards. *)
Theorem C32_clear_disconnects : forall t Max upd disc f w,
  ity_ok t -> vreaches t Max upd disc w -> passive upd -> passive_disc disc ->
  exists w', vrun t Max upd disc (S f) w VClear = Ok (w', RUnit) /\
    v_log w' = v_log w ++ map VDisc (vmembers (v_log w)) ++ [VRet VClear RUnit] /\
    value w' = value w /\ (forall o, v_mirror w' o = v_mirror w o) /\
    forall g op w2 r, vrun t Max upd disc g w' (VOp op) = Ok (w2, r) ->
      v_log w2 = v_log w' ++ [Applied op; VRet (VOp op) r] /\ forall o, v_mirror w2 o = v_mirror w o.
Proof.
  intros t Max upd disc f w T R P1 P2. pose proof (vreach_inv t Max T upd disc w R) as I.
  destruct (passive_total t Max upd disc P1 P2 f w VClear I Logic.I) as (w' & r & E).
  destruct (passive_run t Max upd disc P1 P2 (S f) w VClear w' r I E) as (HL & HM & HV & HR). subst r.
  pose proof (vrun_ext t Max T upd disc (S f) w _ w' _ I E) as X.
  exists w'. split; [exact E|]. split; [exact HL|]. split; [exact HV|]. split; [intros o; rewrite HM; reflexivity|].
  intros g op w2 r E2.
  destruct (passive_run t Max upd disc P1 P2 g w' (VOp op) w2 r (ve_inv _ _ _ _ X) E2) as (HL2 & HM2 & _ & q & -> & _).
  assert (M : vmembers (v_log w') = []).
  { rewrite HL. cbn [effect]. rewrite app_assoc, vmembers_snoc. reflexivity. }
  cbn [effect mirror_after] in HL2, HM2. rewrite M in HL2, HM2. split; [exact HL2|]. intros o. rewrite HM2, HM. reflexivity.
Qed.

Example C32_ex :
  let w := vat u8 no_upd [VAdd 7; VAdd 8; VAdd 9; VOp (Assign 5)] in
  vreaches u8 3 no_upd no_disc w /\
  match vrun u8 3 no_upd no_disc 5 w (VRemove 8) with
  | Ok (w1, r) => r = RErr ok /\
      match vrun_all u8 3 no_upd no_disc 5 w1 [VOp PreInc; VOp (AddEq 3)] with
      | Ok w2 => v_mirror w2 8%positive = 5 /\ v_mirror w2 7%positive = 9 /\ v_mirror w2 9%positive = 9
      | _ => False
      end
  | _ => False
  end /\
  match vrun u8 3 no_upd no_disc 5 w VClear with
  | Ok (w1, _) => v_log w1 = v_log w ++ [VDisc 7; VDisc 8; VDisc 9; VRet VClear RUnit] /\
      match vrun u8 3 no_upd no_disc 5 w1 (VOp PreInc) with
      | Ok (w2, r) => r = RVal 6 /\ v_mirror w2 7%positive = 5
      | _ => False
      end
  | _ => False
  end.
Proof. split; [apply vat_reaches; vm_compute; reflexivity|vm_compute; tauto]. Qed.

(** ** C33 *)
(** Register [l], remove one of them, update: the last registered one still gets
    every update - once more than it should. *)
Theorem C33_dynamic_remove_refuted : forall t upd disc f m l o d op w w1 w2 r,
  passive upd -> passive_disc disc -> NoDup l -> In o l ->
  dcrun_all t upd disc f (dcfresh m) (map VAdd l) = Ok w ->
  dcrun t upd disc f w (VRemove o) = Ok (w1, RErr ok) -> dcrun t upd disc f w1 (VOp op) = Ok (w2, r) ->
  exists p, r = RVal p /\
    dc_log w2 = dc_log w1 ++ Applied op
                :: map (fun x => Store x p) (remove Pos.eq_dec o l ++ [last l d])
                ++ [VRet (VOp op) (RVal p)].
Proof.
  intros t upd disc f m l o d op w w1 w2 r P1 P2 ND HI E E1 E2. destruct f as [|f]; [discriminate|].
  destruct (dc_add_all t upd disc f l (dcfresh m) ND) as (w' & A & B). rewrite A in E. inversion E; subst w'.
  cbn [dcfresh dc_obs app] in B. rewrite dc_remove in E1. inversion E1; subst w1. clear E1.
  pose proof (dc_op_defined _ _ _ _ _ _ _ _ E2) as HO.
  rewrite (dc_passive t upd disc P1 P2 f _ (VOp op) HO) in E2. inversion E2; subst w2 r. eexists. split; [reflexivity|].
  cbn [dc_log dc_obs]. rewrite B, (left_over_nodup o l d ND HI). reflexivity.
Qed.

(** Removing the last one does nothing at all, yet is answered ok. *)
Theorem C33_remove_last_does_nothing_refuted : forall t upd disc f m l o w w1 r,
  NoDup (l ++ [o]) -> dcrun_all t upd disc f (dcfresh m) (map VAdd (l ++ [o])) = Ok w ->
  dcrun t upd disc f w (VRemove o) = Ok (w1, r) ->
  r = RErr ok /\ dc_obs w1 = dc_obs w /\ dc_val w1 = dc_val w /\ dc_mirror w1 = dc_mirror w.
Proof.
  intros t upd disc f m l o w w1 r ND E E1. destruct f as [|f]; [discriminate|].
  destruct (dc_add_all t upd disc f (l ++ [o]) (dcfresh m) ND) as (w' & A & B). rewrite A in E. inversion E; subst w'.
  cbn [dcfresh dc_obs app] in B. rewrite dc_remove in E1. inversion E1; subst w1 r.
  split; [|split; [|split; reflexivity]].
  - unfold remove_answer. rewrite B. destruct (in_dec Pos.eq_dec o (l ++ [o])) as [H|H]; [reflexivity|].
    exfalso. apply H. rewrite in_app_iff. right. left. reflexivity.
  - cbn [dc_obs]. rewrite B. apply left_over_last, ND.
Qed.

(** In every state: a removal never lowers the number of deliveries per update. *)
Theorem C33_removal_never_shrinks : forall t upd disc f w o w1 r op w2 p,
  passive upd -> passive_disc disc ->
  dcrun t upd disc f w (VRemove o) = Ok (w1, r) -> dcrun t upd disc f w1 (VOp op) = Ok (w2, RVal p) ->
  exists l, length l = length (dc_obs w) /\
    dc_log w2 = dc_log w1 ++ Applied op :: map (fun x => Store x p) l ++ [VRet (VOp op) (RVal p)].
Proof.
  intros t upd disc f w o w1 r op w2 p P1 P2 E1 E2. destruct f as [|f]; [discriminate|].
  rewrite dc_remove in E1. inversion E1; subst w1 r. clear E1.
  pose proof (dc_op_defined _ _ _ _ _ _ _ _ E2) as HO.
  rewrite (dc_passive t upd disc P1 P2 f _ (VOp op) HO) in E2. inversion E2; subst w2.
  exists (left_over o (dc_obs w)). split; [apply left_over_length|]. reflexivity.
Qed.

(** remove_observer answers ok exactly for those registered. *)
Theorem C33_remove_answers : forall t upd disc f w o,
  exists w', dcrun t upd disc (S f) w (VRemove o)
             = Ok (w', RErr (if in_dec Pos.eq_dec o (dc_obs w) then ok else not_found)) /\
    dc_val w' = dc_val w /\ dc_mirror w' = dc_mirror w /\
    (~ In o (dc_obs w) -> dc_obs w' = dc_obs w).
Proof.
  intros t upd disc f w o. rewrite dc_remove. eexists. split; [reflexivity|]. split; [reflexivity|]. split; [reflexivity|].
  intros N. cbn [dc_obs]. unfold left_over. rewrite remove_notin by exact N. rewrite skipn_all, app_nil_r. reflexivity.
Qed.

Example C33_ex :
  match dcrun_all u8 no_upd no_disc 5 (dcfresh zeros) (map VAdd [7; 8; 9]%positive) with
  | Ok w => match dcrun u8 no_upd no_disc 5 w (VRemove 8), dcrun u8 no_upd no_disc 5 w (VRemove 9) with
            | Ok (w1, r1), Ok (w2, r2) =>
                r1 = RErr ok /\ dc_obs w1 = [7; 9; 9]%positive /\
                r2 = RErr ok /\ dc_obs w2 = [7; 8; 9]%positive
            | _, _ => False
            end
  | _ => False
  end.
Proof. vm_compute. tauto. Qed.

(** ** C34 *)
Theorem C34_no_lost_update : forall t obs v m progs sched w,
  ity_ok t -> lo t <= v <= hi t -> (forall prog op, In prog progs -> In op prog -> is_rmw op) ->
  crun t obs (cstart v m progs) sched = Ok w -> finished w ->
  c_val w = conv t (v + sum (map (fun prog => sum (map increment prog)) progs)).
Proof.
  intros t obs v m progs sched w T V R E F.
  assert (HR : rmw_threads (c_threads (cstart v m progs))).
  { intros th op Hth Hop. cbn [cstart c_threads] in Hth. apply in_map_iff in Hth.
    destruct Hth as (prog & <- & Hp). exact (R prog op Hp Hop). }
  destruct (crun_total t obs sched (cstart v m progs) w T HR V E) as (A & B).
  rewrite (todo_finished _ F) in B. cbn [cstart c_val c_threads] in B. rewrite todo_start, Z.add_0_r in B.
  rewrite <- B. symmetry. apply conv_id; assumption.
Qed.

Example C34_ex :
  let progs := [[PreInc; PreInc]; [AddEq 10; PostDec]; [SubEq 4]] in
  match crun u8 [7; 8]%positive (cstart 250 zeros progs)
             [0; 1; 2; 1; 0; 1; 0; 2; 2; 0; 0; 0; 1; 1; 1]%nat with
  | Ok w => finished w /\ c_val w = 1
  | _ => False
  end.
Proof.
  vm_compute. split; [|reflexivity]. intros th H.
  repeat (destruct H as [H|H]; [subst; split; reflexivity|]). destruct H.
Qed.

(** ** C35 *)
(** Two concurrent ++x: afterwards the observed holds the older value. *)
Theorem C35_convergence_refuted : exists sched w,
  crun u8 [7%positive] (cstart 0 zeros [[PreInc]; [PreInc]]) sched = Ok w /\
  finished w /\ c_val w = 2 /\ c_mirror w 7%positive = 1.
Proof.
  exists [0; 1; 1; 0]%nat. vm_compute. eexists. split; [reflexivity|]. split; [|split; reflexivity].
  intros th H. repeat (destruct H as [H|H]; [subst; split; reflexivity|]). destruct H.
Qed.

(** An observed never holds anything but its first content or a published value. *)
Theorem C35_only_published_values : forall t obs v m progs sched w o,
  crun t obs (cstart v m progs) sched = Ok w ->
  c_mirror w o = m o \/ In (c_mirror w o) (c_published w).
Proof.
  intros t obs v m progs sched w o E.
  apply (crun_published t obs m sched _ w (start_published v m progs) E).
Qed.

(** With a single writer using =, +=, -=, ++x the observeds do converge. *)
Theorem C35_single_writer_converges : forall t obs v m prog sched w o,
  ity_ok t -> prog <> [] -> (forall op, In op prog -> faithful_op op = true) ->
  crun t obs (cstart v m [prog]) sched = Ok w -> finished w -> In o obs ->
  c_mirror w o = c_val w.
Proof.
  intros t obs v m prog sched w o T NE HF E F HO.
  assert (S0 : follows obs prog (cstart v m [prog])).
  { exists prog, []. cbn. split; [reflexivity|]. split; [exact HF|]. left. reflexivity. }
  destruct (crun_follows t obs prog sched T _ w S0 E) as (rest & todo & HT & _ & HC).
  destruct (F (Thread rest (map (fun o => (o, c_val w)) todo))) as [H1 H2]; [rewrite HT; left; reflexivity|].
  cbn [th_prog th_pending] in H1, H2. subst rest.
  destruct HC as [HC|(done & HD & HM)]; [congruence|].
  apply map_eq_nil in H2. subst todo. rewrite app_nil_r in HD. subst done. apply HM, HO.
Qed.

Example C35_ex :
  match crun u8 [7; 8]%positive (cstart 0 zeros [[AddEq 4; PreInc]]) [0; 0; 0; 0; 0; 0]%nat with
  | Ok w => finished w /\ c_val w = 5 /\ c_mirror w 8%positive = 5
  | _ => False
  end.
Proof.
  vm_compute. split; [|tauto]. intros th H.
  repeat (destruct H as [H|H]; [subst; split; reflexivity|]). destruct H.
Qed.

(** ** C88 *)
(** Callbacks may operate on the observable in any way: add, remove and clear observers,
    notify, assign and step the value, to any depth. *)
Theorem C88_reentrant_never_undefined : forall t Max upd disc f m calls,
  ity_ok t -> (forall log o n, tame_body t (upd log o n)) -> (forall log o, tame_body t (disc log o)) ->
  Forall (tame_call t) calls ->
  vrun_all t Max upd disc f (vfresh Max m) calls <> UB.
Proof.
  intros t Max upd disc f m calls T TU TD TC.
  apply (run_all_fine t Max T upd disc TU TD f calls TC). apply vinv_fresh, T.
Qed.

(** What is tame: everything but arithmetic whose result can leave the type it is done in. *)
Theorem C88_what_is_tame : forall t o, ity_ok t ->
  match o with
  | Assign _ | PostInc | PostDec => True
  | AddEq n => i_signed (common t) = false \/ (i_bits t < 32 /\ - 2 ^ 31 <= lo t + n /\ hi t + n < 2 ^ 31)
  | SubEq n => i_signed (common t) = false \/ (i_bits t < 32 /\ - 2 ^ 31 <= lo t - n /\ hi t - n < 2 ^ 31)
  | PreInc | PreDec => i_signed (common t) = false \/ i_bits t < 32
  end -> tame t o.
Proof.
  intros [b s] o T H x X [E1 E2].
  assert (W : b < 32 -> in_ity (common {| i_bits := b; i_signed := s |}) = fun y => - 2 ^ 31 <= y <= 2 ^ 31 - 1).
  { intros L. unfold common. cbn [i_bits]. replace (b <? 32) with true by lia. reflexivity. }
  unfold in_ity in X. unfold ity_ok in T. cbn [i_bits] in T.
  destruct o; cbn in E2, H; try exact E2;
    (destruct H as [H|H]; [congruence|]); cbn [i_bits] in H;
    rewrite W in E2 by lia; try lia.
  - assert (lo {| i_bits := b; i_signed := s |} >= -32768 /\ hi {| i_bits := b; i_signed := s |} <= 65535).
    { unfold lo, hi. cbn [i_bits i_signed]. destruct T as [->|[->|[->| ->]]]; destruct s; lia. }
    change (2 ^ 31) with 2147483648 in *. lia.
  - assert (lo {| i_bits := b; i_signed := s |} >= -32768 /\ hi {| i_bits := b; i_signed := s |} <= 65535).
    { unfold lo, hi. cbn [i_bits i_signed]. destruct T as [->|[->|[->| ->]]]; destruct s; lia. }
    change (2 ^ 31) with 2147483648 in *. lia.
Qed.

(** Whoever is given a value or disconnected has been added before; nobody else's copy
    is written. *)
Theorem C88_only_added_are_reached : forall t Max upd disc w l1 e l2,
  ity_ok t -> vreaches t Max upd disc w -> v_log w = l1 ++ e :: l2 ->
  match e with
  | Store o _ | VDisc o => In (VRet (VAdd o) (RErr ok)) l1
  | _ => True
  end.
Proof.
  intros t Max upd disc w l1 e l2 T R E.
  pose proof (vi_good _ _ _ (vreach_inv t Max T upd disc w R)) as G.
  pose proof (vgood_split Max _ G l1 e l2 E) as X. destruct e; exact X || exact Logic.I.
Qed.

(** Every observed holds what it was told last. *)
Theorem C88_holds_last_told : forall t Max upd disc f m calls w,
  vrun_all t Max upd disc f (vfresh Max m) calls = Ok w -> forall o, v_mirror w o = told m (v_log w) o.
Proof.
  intros t Max upd disc f m calls w E. apply (vrun_all_true t Max upd disc m f calls (vfresh Max m) w); [|exact E]. intros o. reflexivity.
Qed.

(** Callbacks that add, remove, clear and increment. *)
Definition wild (log : list vev) (o : addr) (n : Z) : vbody :=
  if (n <? 5) then VDo (VOp PreInc) (fun _ => VDo (VAdd (Pos.succ o)) (fun _ => VReturn))
  else VDo (VRemove o) (fun _ => VDo VClear (fun _ => VDo (VAdd 99) (fun _ => VReturn))).
Example C88_ex :
  (forall log o n, tame_body u8 (wild log o n)) /\ (forall log o, tame_body u8 (no_disc log o)) /\
  Forall (tame_call u8) [VAdd 7; VAdd 8; VOp (Assign 3)] /\
  match vrun_all u8 3 wild no_disc 9 (vfresh 3 zeros) [VAdd 7; VAdd 8; VOp (Assign 3)] with
  | Ok w => value w = 7 /\ In (Store 7 5) (v_log w) /\ vmembers (v_log w) <> []
  | _ => False
  end.
Proof.
  assert (PI : tame u8 PreInc).
  { apply (C88_what_is_tame u8 PreInc); [left; reflexivity|right; reflexivity]. }
  assert (PA : forall v, tame u8 (Assign v)).
  { intros v. apply (C88_what_is_tame u8 (Assign v)); [left; reflexivity|exact Logic.I]. }
  split.
  { intros log o n. unfold wild. destruct (n <? 5); repeat (constructor; [cbn; exact PI || exact Logic.I|intros _]); constructor. }
  split; [intros; constructor|]. split; [repeat constructor; apply PA|].
  vm_compute. split; [reflexivity|]. split; [tauto|discriminate].
Qed.

(** ** C89 *)
(** There is no recursion guard: a callback that assigns every time it is told a value
    (even the same one) never lets the operator return. *)
Theorem C89_unconditional_reaction_never_ends : forall t Max upd disc w op f,
  ity_ok t -> vreaches t Max upd disc w -> vmembers (v_log w) <> [] ->
  (forall log o n, exists v k, upd log o n = VDo (VOp (Assign v)) k) ->
  ~ overflows t (value w) op ->
  vrun t Max upd disc f w (VOp op) = Fuel.
Proof.
  intros t Max upd disc w op f T R NE HU NO.
  apply (endless t Max upd disc HU T f w op (vreach_inv t Max T upd disc w R) NE NO).
Qed.

Definition always5 (log : list vev) (o : addr) (n : Z) : vbody := VDo (VOp (Assign 5)) (fun _ => VReturn).
Example C89_ex :
  vreaches u8 3 always5 no_disc (vat u8 always5 [VAdd 7]) /\
  vmembers (v_log (vat u8 always5 [VAdd 7])) <> [] /\ ~ overflows u8 0 (Assign 5) /\
  vrun u8 3 always5 no_disc 50 (vat u8 always5 [VAdd 7]) (VOp (Assign 5)) = Fuel.
Proof.
  split; [apply vat_reaches; vm_compute; reflexivity|]. split; [vm_compute; discriminate|].
  split; [intros [_ []]|vm_compute; reflexivity].
Qed.

(** ** C90 *)
(** One observed limits the value to [c].  Those registered before it end with [c];
    those registered after it end with the value that was replaced, and the operator
    returns that value too. *)
Theorem C90_limiter_leaves_stale_copies : forall t Max disc f w op p a c pre post,
  ity_ok t -> vreaches t Max (limiter a c) disc w -> in_ity t c ->
  vmembers (v_log w) = pre ++ a :: post ->
  published t (value w) op = Ok p -> p <> c ->
  exists w', vrun t Max (limiter a c) disc (S (S f)) w (VOp op) = Ok (w', RVal p) /\
    value w' = c /\
    (forall o, In o (pre ++ [a]) -> v_mirror w' o = c) /\
    (forall o, In o post -> v_mirror w' o = p) /\
    (forall o, ~ In o (pre ++ a :: post) -> v_mirror w' o = v_mirror w o).
Proof.
  intros t Max disc f w op p a c pre post T R C M EP NE.
  destruct (limiter_run t Max disc f w op p a c pre post T (vreach_inv t Max T _ disc w R) C M EP NE)
    as (w' & E & V & A & B & D & _).
  exists w'. split; [exact E|]. split; [exact V|]. split; [exact A|]. split; [exact B|exact D].
Qed.

(** So the mirrors are right for any operator exactly when the limiter is registered last. *)
Theorem C90_limiter_last_is_consistent : forall t Max disc f w op p a c pre post w' r,
  ity_ok t -> vreaches t Max (limiter a c) disc w -> in_ity t c ->
  vmembers (v_log w) = pre ++ a :: post ->
  published t (value w) op = Ok p -> p <> c ->
  vrun t Max (limiter a c) disc (S (S f)) w (VOp op) = Ok (w', r) ->
  ((forall o, In o (vmembers (v_log w)) -> v_mirror w' o = value w') <-> post = []).
Proof.
  intros t Max disc f w op p a c pre post w' r T R C M EP NE E'.
  destruct (C90_limiter_leaves_stale_copies t Max disc f w op p a c pre post T R C M EP NE)
    as (w2 & E & V & A & B & _).
  rewrite E' in E. inversion E; subst w2 r. rewrite M. split.
  - intros H. destruct post as [|o post]; [reflexivity|exfalso]. apply NE.
    rewrite <- (B o) by (left; reflexivity). rewrite <- V. apply H, in_app_iff. right. right. left. reflexivity.
  - intros -> o H. rewrite V. apply A, H.
Qed.

(** An observed that clears the observers while it is being told: those registered after
    it are disconnected and then still given the value. *)
Theorem C90_cleared_observers_still_called : forall t Max disc f w op p a pre post,
  ity_ok t -> vreaches t Max (clearer a) disc w -> passive_disc disc ->
  vmembers (v_log w) = pre ++ a :: post -> published t (value w) op = Ok p ->
  exists w', vrun t Max (clearer a) disc (S (S f)) w (VOp op) = Ok (w', RVal p) /\
    vmembers (v_log w') = [] /\
    v_log w' = v_log w ++ Applied op :: map (fun o => Store o p) (pre ++ [a])
                ++ map VDisc (pre ++ a :: post)
                ++ VRet VClear RUnit :: map (fun o => Store o p) post
                ++ [VRet (VOp op) (RVal p)].
Proof.
  intros t Max disc f w op p a pre post T R PD M EP.
  pose proof (vreach_inv t Max T _ disc w R) as I.
  destruct (clearer_run t Max disc f w op p a pre post T I PD M EP) as (w' & E & V & L).
  exists w'. split; [exact E|]. split; [|exact L].
  pose proof (vrun_safe t Max T (clearer a) disc (S (S f)) w (VOp op) I) as SF. rewrite E in SF. cbn [vsafe2] in SF.
  pose proof (vi_cnt _ _ _ (ve_inv _ _ _ _ SF)) as H. rewrite V in H.
  destruct (vmembers (v_log w')); [reflexivity|discriminate].
Qed.

Example C90_ex :
  let w := vat u8 (limiter 8 100) [VAdd 7; VAdd 8; VAdd 9] in
  vreaches u8 3 (limiter 8 100) no_disc w /\ in_ity u8 100 /\
  vmembers (v_log w) = [7%positive] ++ 8%positive :: [9%positive] /\ published u8 (value w) (Assign 250) = Ok 250 /\
  match vrun u8 3 (limiter 8 100) no_disc 5 w (VOp (Assign 250)) with
  | Ok (w', r) => r = RVal 250 /\ value w' = 100 /\ v_mirror w' 7%positive = 100 /\ v_mirror w' 9%positive = 250
  | _ => False
  end /\
  let c := vat u8 (clearer 8) [VAdd 7; VAdd 8; VAdd 9] in
  vreaches u8 3 (clearer 8) no_disc c /\ vmembers (v_log c) = [7; 8; 9]%positive.
Proof.
  cbv zeta. split; [apply vat_reaches; vm_compute; reflexivity|].
  split; [vm_compute; split; discriminate|]. split; [vm_compute; reflexivity|]. split; [vm_compute; reflexivity|].
  split; [vm_compute; tauto|].
  split; [apply vat_reaches; vm_compute; reflexivity|vm_compute; reflexivity].
Qed.

(** ** C91 *)
(** The dynamic class, callbacks that leave it alone, no removal made. *)
Theorem C91_dynamic_add : forall t upd disc f w o,
  ity_ok t -> dcreaches_no_remove t upd disc w -> passive upd -> passive_disc disc ->
  exists w', dcrun t upd disc (S f) w (VAdd o)
             = Ok (w', RErr (if in_dec Pos.eq_dec o (vmembers (dc_log w)) then already_contains else ok)) /\
    vmembers (dc_log w') = (if in_dec Pos.eq_dec o (vmembers (dc_log w)) then vmembers (dc_log w)
                            else vmembers (dc_log w) ++ [o]) /\
    dc_val w' = dc_val w /\ dc_mirror w' = dc_mirror w.
Proof.
  intros t upd disc f w o T R P1 P2. destruct (dc_set_reach t upd disc P1 P2 T w R) as (S1 & _ & _).
  rewrite (dc_passive t upd disc P1 P2 f w (VAdd o) Logic.I). rewrite <- S1. eexists. split; [reflexivity|].
  split; [|split; reflexivity]. cbn [dc_log]. rewrite vmembers_snoc, <- S1.
  destruct (in_dec Pos.eq_dec o (dc_obs w)); reflexivity.
Qed.

Theorem C91_dynamic_operator : forall t upd disc f w op,
  ity_ok t -> dcreaches_no_remove t upd disc w -> passive upd -> passive_disc disc ->
  ~ overflows t (dc_val w) op ->
  exists w' p, dcrun t upd disc (S f) w (VOp op) = Ok (w', RVal p) /\
    published t (dc_val w) op = Ok p /\ (faithful_op op = true -> p = dc_val w') /\
    dc_val w' = conv t (math (dc_val w) op) /\
    (forall o, In o (vmembers (dc_log w)) -> dc_mirror w' o = p) /\
    (forall o, ~ In o (vmembers (dc_log w)) -> dc_mirror w' o = dc_mirror w o) /\
    dc_log w' = dc_log w ++ Applied op :: map (fun o => Store o p) (vmembers (dc_log w)) ++ [VRet (VOp op) (RVal p)] /\
    NoDup (vmembers (dc_log w)).
Proof.
  intros t upd disc f w op T R P1 P2 HO. destruct (dc_set_reach t upd disc P1 P2 T w R) as (S1 & S2 & _).
  rewrite (dc_passive t upd disc P1 P2 f w (VOp op) HO). rewrite <- S1.
  destruct (published_ub t (dc_val w) op) as [U1 U2].
  destruct (published t (dc_val w) op) as [p| |] eqn:EP; [|tauto|congruence].
  eexists. exists p. split; [reflexivity|]. split; [reflexivity|]. cbn [dc_val dc_mirror dc_log].
  split; [intros F; exact (published_faithful t _ op p T F EP)|].
  split; [apply apply_math, T|]. split; [intros o H; apply store_all_in, H|].
  split; [intros o H; apply store_all_out, H|]. split; [reflexivity|exact S2].
Qed.

Theorem C91_dynamic_clear : forall t upd disc f w,
  ity_ok t -> dcreaches_no_remove t upd disc w -> passive upd -> passive_disc disc ->
  exists w', dcrun t upd disc (S f) w VClear = Ok (w', RUnit) /\
    dc_log w' = dc_log w ++ map VDisc (vmembers (dc_log w)) ++ [VRet VClear RUnit] /\
    dc_val w' = dc_val w /\ dc_mirror w' = dc_mirror w /\
    forall g op w2 r, dcrun t upd disc g w' (VOp op) = Ok (w2, r) ->
      dc_log w2 = dc_log w' ++ [Applied op; VRet (VOp op) r] /\ dc_mirror w2 = dc_mirror w.
Proof.
  intros t upd disc f w T R P1 P2. destruct (dc_set_reach t upd disc P1 P2 T w R) as (S1 & _ & _).
  rewrite (dc_passive t upd disc P1 P2 f w VClear Logic.I). rewrite <- S1. eexists. split; [reflexivity|].
  split; [reflexivity|]. split; [reflexivity|]. split; [reflexivity|].
  intros g op w2 r E. destruct g as [|g]; [discriminate|].
  assert (HO : ~ overflows t (dc_val w) op).
  { intros X. apply published_ub in X. cbn [dcrun dc_val] in E. rewrite X in E. discriminate. }
  rewrite (dc_passive t upd disc P1 P2 g _ (VOp op)) in E by exact HO. inversion E; subst w2 r.
  cbn [dc_log dc_obs dc_mirror map app dv_store_all]. split; reflexivity.
Qed.

Definition dat (t : ity) upd (calls : list vcall) : dvc :=
  match dcrun_all t upd no_disc 9 (dcfresh zeros) calls with Ok w => w | _ => dcfresh zeros end.
Lemma dat_reaches t upd calls :
  (match dcrun_all t upd no_disc 9 (dcfresh zeros) calls with Ok _ => true | _ => false end) = true ->
  dcreaches t upd no_disc (dat t upd calls) /\
  ((forall o, ~ In (VRemove o) calls) -> dcreaches_no_remove t upd no_disc (dat t upd calls)).
Proof.
  unfold dcreaches, dcreaches_no_remove, dat. intros H.
  destruct (dcrun_all t upd no_disc 9 (dcfresh zeros) calls) eqn:E; try discriminate. split.
  - exists zeros, 9%nat, calls. exact E.
  - intros N. exists zeros, 9%nat, calls. split; [exact N|exact E].
Qed.
Example C91_ex :
  let w := dat u8 no_upd [VAdd 7; VAdd 8; VAdd 7; VOp (Assign 200); VAdd 9] in
  dcreaches_no_remove u8 no_upd no_disc w /\ vmembers (dc_log w) = [7; 8; 9]%positive /\
  match dcrun u8 no_upd no_disc 5 w (VOp (AddEq 100)) with
  | Ok (w', r) => r = RVal 44 /\ map (dc_mirror w') [7; 8; 9; 10]%positive = [44; 44; 44; 0]
  | _ => False
  end.
Proof.
  split; [apply dat_reaches; [vm_compute; reflexivity|intros o H; repeat (destruct H as [H|H]; [discriminate|]); exact H]|].
  vm_compute. tauto.
Qed.

(** ** C92 *)
(** Callbacks of the dynamic class: as long as none of them adds an observer or clears
    them, nothing undefined happens. *)
Theorem C92_defined_without_additions : forall t upd disc f m calls,
  ity_ok t -> (forall log o n, stable_body t (upd log o n)) -> (forall log o, stable_body t (disc log o)) ->
  Forall (tame_call t) calls ->
  dcrun_all t upd disc f (dcfresh m) calls <> UB.
Proof.
  intros t upd disc f m calls T SU SD TC. apply (dcrun_all_defined t upd disc T SU SD f calls TC).
  cbn. unfold in_ity, lo, hi. pose proof (pow_half t T) as [H1 H2]. destruct (i_signed t); lia.
Qed.

(** Conversely an update or notification that comes to its end contains no successful
    addition and no clear: one of those makes it undefined. *)
Theorem C92_additions_are_undefined : forall t upd disc f w c w' r,
  (match c with VOp _ | VNotify _ => True | _ => False end) ->
  dcrun t upd disc f w c = Ok (w', r) ->
  exists evs, dc_log w' = dc_log w ++ evs ++ [VRet c r] /\
    (forall o, ~ In (VRet (VAdd o) (RErr ok)) evs) /\ (forall x, ~ In (VRet VClear x) evs).
Proof.
  intros t upd disc f w c w' r C E. destruct (dcrun_adds t upd disc f w c w' r E) as [_ (evs & L & Q)].
  exists evs. split; [exact L|]. assert (N : ngrow evs = O) by (apply Q; destruct c; try destruct C; reflexivity).
  split; intros x H; pose proof (ngrow_none evs N _ H) as X; discriminate.
Qed.

(** Whatever the callbacks do, the value is that of all operators applied and every observed
    holds what it was told last. *)
Theorem C92_holds_last_told : forall t upd disc f m calls w,
  ity_ok t -> dcrun_all t upd disc f (dcfresh m) calls = Ok w ->
  dc_val w = conv t (math_value (dc_log w)) /\ forall o, dc_mirror w o = told m (dc_log w) o.
Proof.
  intros t upd disc f m calls w T E. apply (drun_all_true t T upd disc m f calls (dcfresh m) w); [|exact E].
  split; [cbn; symmetry; apply conv_id; [exact T|]|reflexivity].
  unfold in_ity, lo, hi. pose proof (pow_half t T) as [H1 H2]. destruct (i_signed t); lia.
Qed.

(** An observed [a] that removes [x] while it is being updated: which ones are updated. *)
Theorem C92_removal_during_update : forall t disc f w op a x p q d v,
  dc_obs w = p ++ a :: q -> NoDup (p ++ a :: q) -> In x (p ++ a :: q) ->
  published t (dc_val w) op = Ok v ->
  exists w', dcrun t (vremover a x) disc (S (S f)) w (VOp op) = Ok (w', RVal v) /\
    dc_log w' = dc_log w ++ Applied op :: map (fun o => Store o v) (p ++ [a])
                ++ VRet (VRemove x) (RErr ok) :: map (fun o => Store o v) (after_removal x q d)
                ++ [VRet (VOp op) (RVal v)].
Proof.
  intros t disc f w op a x p q d v E ND HI EP.
  set (w0 := dcemit (DVC (apply_atomic t (dc_val w) op) (dc_obs w) (dc_ver w) (dc_mirror w) (dc_log w)) (Applied op)).
  destruct (dc_notify_removal t disc f w0 a x p q d v) as [m L]; [exact E|rewrite <- E in ND; exact ND|rewrite <- E in HI; exact HI|].
  remember (S f) as sf. cbn [dcrun]. rewrite EP. cbn [bind]. fold w0. rewrite L. cbn [bind]. eexists. split; [reflexivity|].
  cbn. rewrite <- !app_assoc. reflexivity.
Qed.

(** In words: the removed one is still updated when it is the last, the one after the
    remover is left out when the remover removes itself or an earlier one, and the last
    one is updated twice unless it was the one left out. *)
Theorem C92_who_is_left_out : forall x q d b q',
  NoDup q ->
  after_removal x [] d = [] /\
  (q = b :: q' -> ~ In x q -> after_removal x q d = q' ++ [last q d]) /\
  (In x q -> after_removal x q d = remove Pos.eq_dec x q ++ [last q d]) /\
  (q = q' ++ [x] -> after_removal x q d = q).
Proof.
  intros x q d b q' ND. split; [reflexivity|]. unfold after_removal. split; [|split].
  - intros -> H. destruct (in_dec Pos.eq_dec x (b :: q')); [contradiction|reflexivity].
  - intros H. destruct q as [|c q2]; [destruct H|]. destruct (in_dec Pos.eq_dec x (c :: q2)); [reflexivity|contradiction].
  - intros E. assert (H : In x q) by (rewrite E; apply in_app_iff; right; left; reflexivity).
    destruct q as [|c q2]; [destruct H|]. destruct (in_dec Pos.eq_dec x (c :: q2)); [|contradiction].
    rewrite E in *. rewrite last_last, remove_app. cbn [remove]. destruct (Pos.eq_dec x x); [|congruence].
    rewrite app_nil_r, remove_notin; [reflexivity|]. apply NoDup_remove_2 in ND. rewrite app_nil_r in ND. exact ND.
Qed.

Definition adder (log : list vev) (o : addr) (n : Z) : vbody := VDo (VAdd 50) (fun _ => VReturn).
Example C92_ex :
  (forall log o n, stable_body u8 (vremover 7 7 log o n)) /\
  let w := dat u8 (vremover 7 7) [VAdd 6; VAdd 7; VAdd 8; VAdd 9] in
  dc_obs w = [6%positive] ++ 7%positive :: [8; 9]%positive /\
  match dcrun u8 (vremover 7 7) no_disc 5 w (VOp (Assign 3)) with
  | Ok (w', r) => r = RVal 3 /\ map (dc_mirror w') [6; 7; 8; 9]%positive = [3; 3; 0; 3] /\
                  count_occ Pos.eq_dec (after_removal 7 [8; 9]%positive 1) 9%positive = 2%nat
  | _ => False
  end /\
  dcrun_all u8 adder no_disc 9 (dcfresh zeros) [VAdd 6; VOp (Assign 3)] = UB /\
  dcrun_all u8 (clearer 6) no_disc 9 (dcfresh zeros) [VAdd 6; VOp (Assign 3)] = UB.
Proof.
  split; [|vm_compute; tauto]. intros log o n. unfold vremover. destruct (Pos.eqb o 7); [|constructor].
  constructor; [exact Logic.I|]. intros r. constructor.
Qed.

(** Observed 7 takes 8 out at the first notification. *)
Example C92_ex_told :
  match dcrun_all {| i_bits := 8; i_signed := false |} (vremover 7 8) (fun _ _ => VReturn) 3 (dcfresh (fun _ => 0))
          [VAdd 7; VAdd 8; VAdd 9; VOp (Assign 3); VRemove 9; VOp (Assign 4)] with
  | Ok w => dc_val w = 4 /\ map (told (fun _ => 0) (dc_log w)) [7; 8; 9]%positive = [4; 0; 4]
  | _ => False end.
Proof. vm_compute. split; reflexivity. Qed.
Example C88_ex_told :
  match vrun_all {| i_bits := 8; i_signed := false |} 5 (limiter 7 3) (fun _ _ => VReturn) 5 (vfresh 5 (fun _ => 9))
          [VAdd 7; VAdd 8; VOp (Assign 6); VRemove 8; VOp (Assign 4)] with
  | Ok w => value w = 3 /\ map (told (fun _ => 9) (v_log w)) [7; 8; 9]%positive = [3; 6; 9]
  | _ => False end.
Proof. vm_compute. split; reflexivity. Qed.

Print Assumptions C28_value_wraps.
Print Assumptions C28_value_of_calls.
Print Assumptions C28_conv_is_wrap.
Print Assumptions C29_observed_mirror.
Print Assumptions C29_operator_returns.
Print Assumptions C30_decrement_and_postfix_refuted.
Print Assumptions C31_undefined_iff_overflow.
Print Assumptions C31_unsigned_never_undefined.
Print Assumptions C31_where_it_overflows.
Print Assumptions C32_removed_gets_nothing.
Print Assumptions C32_others_keep_receiving.
Print Assumptions C32_add_remove_answers.
Print Assumptions C32_clear_disconnects.
Print Assumptions C33_dynamic_remove_refuted.
Print Assumptions C33_remove_last_does_nothing_refuted.
Print Assumptions C33_removal_never_shrinks.
Print Assumptions C33_remove_answers.
Print Assumptions C34_no_lost_update.
Print Assumptions C35_convergence_refuted.
Print Assumptions C35_only_published_values.
Print Assumptions C35_single_writer_converges.
Print Assumptions C88_reentrant_never_undefined.
Print Assumptions C88_what_is_tame.
Print Assumptions C88_only_added_are_reached.
Print Assumptions C88_holds_last_told.
Print Assumptions C89_unconditional_reaction_never_ends.
Print Assumptions C90_limiter_leaves_stale_copies.
Print Assumptions C90_limiter_last_is_consistent.
Print Assumptions C90_cleared_observers_still_called.
Print Assumptions C91_dynamic_add.
Print Assumptions C91_dynamic_operator.
Print Assumptions C91_dynamic_clear.
Print Assumptions C92_defined_without_additions.
Print Assumptions C92_additions_are_undefined.
Print Assumptions C92_holds_last_told.
Print Assumptions C92_removal_during_update.
Print Assumptions C92_who_is_left_out.
