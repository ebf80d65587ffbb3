(** The dynamic value observable used by several threads. *)
From Verif Require Import VDynProofs2.
From Verif Require Export VDynSpec.

Section P.
  Variable t : ity.
  Hypothesis T : ity_ok t.
  Notation drun := (drun t).

(** ** C141 (violated by the code: the vector is not protected) *)

(** Calls nobody interrupts do what they do in single-threaded use, whatever room the
    vector has. *)
Theorem C141_alone w i calls rest l room n w1 :
  holds (d_mem w) l room -> d_thr w i = d_prog t (calls ++ rest) ->
  dcrun_all t (fun _ _ _ => VReturn) (fun _ _ => VReturn) 1 (DVC (d_val (d_mem w)) l n (d_mirror (d_mem w)) []) calls = Ok w1 ->
  exists k w' room', drun w (repeat i k) = Ok w' /\ d_log w' = d_log w ++ map (pair i) (dc_log w1) /\
    holds (d_mem w') (dc_obs w1) room' /\ d_val (d_mem w') = dc_val w1 /\ d_mirror (d_mem w') = dc_mirror w1 /\
    d_thr w' i = d_prog t rest /\ forall j, j <> i -> d_thr w' j = d_thr w j.
Proof.
  intros H E R. destruct (alone_all t i rest calls w l room n [] w1 H E R) as (k & w' & room' & es & R' & H' & V & M & TI & TJ & L & EL).
  cbn [app] in EL. subst es. exists k, w', room'. auto 8.
Qed.
(** So does any use of a new observable by one thread. *)
Theorem C141_from_new mi i calls w1 :
  dcrun_all t (fun _ _ _ => VReturn) (fun _ _ => VReturn) 1 (dcfresh mi) calls = Ok w1 ->
  exists k w' room, drun (dstarted t (dnew mi) (fun a => if (a =? i)%nat then calls else [])) (repeat i k) = Ok w' /\ all_done w' /\
    d_log w' = map (pair i) (dc_log w1) /\ holds (d_mem w') (dc_obs w1) room /\
    d_val (d_mem w') = dc_val w1 /\ d_mirror (d_mem w') = dc_mirror w1.
Proof.
  intros R. set (w0 := dstarted t (dnew mi) (fun a => if (a =? i)%nat then calls else [])).
  assert (H0 : holds (d_mem w0) [] 0) by (exists []; repeat split; left; reflexivity).
  assert (E0 : d_thr w0 i = d_prog t (calls ++ [])) by (cbn; rewrite Nat.eqb_refl, app_nil_r; reflexivity).
  destruct (alone_all t i [] calls w0 [] 0%nat (dc_ver (dcfresh mi)) [] w1 H0 E0 R) as (k & w' & room' & es & R' & H' & V & M & TI & TJ & L & EL).
  cbn [app] in EL. subst es. exists k, w', room'. split; [exact R'|]. split; [|auto].
  intros a. destruct (Nat.eq_dec a i) as [->|NA]; [exact TI|]. rewrite TJ by exact NA. cbn. destruct (Nat.eqb_spec a i); [congruence|reflexivity].
Qed.
(** Two registrations at once in a vector with room, both reported as made: the first observed
    is not registered, and its removal finds nothing. *)
Theorem C141_lost_add_refuted m l room i j o1 o2 :
  holds m l room -> (0 < room)%nat -> i <> j -> ~ In o1 l -> ~ In o2 l -> o1 <> o2 ->
  exists s w, drun (dstarted t m (two i j (VAdd o1) (VAdd o2))) s = Ok w /\ all_done w /\
    In (i, VRet (VAdd o1) (RErr ok)) (d_log w) /\ In (j, VRet (VAdd o2) (RErr ok)) (d_log w) /\
    holds (d_mem w) (l ++ [o2]) (room - 1) /\
    exists k w', drun (dstarted t (d_mem w) (fun a => if (a =? i)%nat then [VRemove o1] else [])) (repeat i k) = Ok w' /\
      all_done w' /\ d_log w' = [(i, VRet (VRemove o1) (RErr not_found))].
Proof.
  intros H L N N1 N2 NE. destruct room as [|room]; [lia|].
  destruct (lost_add t m l room i j o1 o2 H N N1 N2) as (s & w & R & D & EL & H').
  exists s, w. split; [exact R|]. split; [exact D|]. rewrite EL. split; [right; left; reflexivity|]. split; [left; reflexivity|].
  replace (S room - 1)%nat with room by lia. split; [exact H'|]. apply holds_vec in H'. destruct H' as (b & tl & _ & V).
  assert (NI : ~ In o1 (l ++ [o2])) by (intros X; apply in_app_or in X; destruct X as [X|[X|[]]]; [contradiction|congruence]).
  destruct (remove_goes t (d_mem w) b _ tl o1 (fun e => DOut (VRemove o1) (RErr e) DStop) V) as (m' & G & _).
  unfold remove_answer in G. destruct (in_dec Pos.eq_dec o1 (l ++ [o2])) as [X|_]; [contradiction|].
  assert (G' : goes t (d_mem w) (d_prog t [VRemove o1]) [VRet (VRemove o1) (RErr not_found)] m' DStop).
  { eapply goes_trans0; [exact G|]. apply goes_one. reflexivity. }
  destruct (goes_sched t _ _ _ _ _ i G' (dstarted t (d_mem w) (fun a => if (a =? i)%nat then [VRemove o1] else [])) eq_refl) as (k & w' & R' & [A1 A2 A3 A4]).
  { cbn. rewrite Nat.eqb_refl. reflexivity. }
  exists k, w'. split; [exact R'|]. split; [|exact A4]. intros a. destruct (Nat.eq_dec a i) as [->|NA]; [exact A2|].
  rewrite A3 by exact NA. cbn. destruct (Nat.eqb_spec a i); [congruence|reflexivity].
Qed.
(** A registration for which the vector is full, during an update: the update goes on reading
    the array that was freed. *)
Theorem C141_freed_array_read_refuted m l i j op o :
  holds m l 0 -> i <> j -> l <> [] -> ~ In o l -> ~ overflows t (d_val m) op ->
  exists s, drun (dstarted t m (two i j (VOp op) (VAdd o))) s = UB.
Proof. intros H N NE NI NO. destruct (publish t _ op T NO) as (p & E & _). apply (freed_read t m l i j op p o); assumption. Qed.
(** A registration for which the vector is full - the first one of all, say - between another
    call's begin() and end(): they belong to different arrays.  Only remove_observer of an
    observable without observeds asks for nothing more. *)
Theorem C141_mixed_iterators_refuted m l i j c o :
  holds m l 0 -> i <> j -> ~ In o l -> fits t (d_val m) c -> (l = [] -> forall x, c <> VRemove x) ->
  exists s, drun (dstarted t m (two i j c (VAdd o))) s = UB.
Proof. intros. apply (grown_during t m l); assumption. Qed.
(** Two registrations at once in a full vector: both free the old array. *)
Theorem C141_freed_twice_refuted m l i j o1 o2 :
  holds m l 0 -> i <> j -> l <> [] -> ~ In o1 l -> ~ In o2 l ->
  exists s, drun (dstarted t m (two i j (VAdd o1) (VAdd o2))) s = UB.
Proof. intros. apply (freed_twice t m l); assumption. Qed.
(** clear_observers() during an update: every observed is told the value after it was
    disconnected and clear_observers() has returned. *)
Theorem C141_told_after_clear_refuted m l room i j op :
  holds m l room -> i <> j -> ~ overflows t (d_val m) op ->
  exists s w q, publishes t (d_val m) op q /\ drun (dstarted t m (two i j (VOp op) VClear)) s = Ok w /\ all_done w /\
    forall o, In o l -> before (d_log w) (j, VDisc o) (i, Store o q) /\ before (d_log w) (j, VRet VClear RUnit) (i, Store o q).
Proof.
  intros H N NO. destruct (publish t _ op T NO) as (q & E & P). destruct (told_cleared t m l room i j op q H N E) as (s & w & R & D & EL).
  exists s, w, q. split; [exact P|]. split; [exact R|]. split; [exact D|]. intros o HO. rewrite EL, app_comm_cons.
  assert (HS : In (i, Store o q) (map (pair i) (map (fun o => Store o q) l ++ [VRet (VOp op) (RVal q)]))).
  { apply in_map. apply in_or_app. left. apply in_map_iff. exists o. auto. }
  split; apply before_app; try exact HS; right; apply in_map; apply in_or_app; [left; apply in_map, HO|right; left; reflexivity].
Qed.
(** A registration of a new observed, and clear_observers() of an observable that has observeds,
    race with every call. *)
Theorem C141_races m l room i j a b :
  holds m l room -> i <> j -> (exists o, a = VAdd o /\ ~ In o l) \/ (a = VClear /\ l <> []) -> fits t (d_val m) b ->
  exists s w, drun (dstarted t m (two i j a b)) s = Ok w /\ data_race w.
Proof. intros H N A F. apply (race t m l room a b i j); assumption. Qed.
End P.

(** ** Examples *)
Definition C141_u8 : ity := {| i_bits := 8; i_signed := false |}.
Definition C141_view (r : res dworld) : res (list (nat * vev) * list Z * (nat * dptr * dptr) * list (option (list ptr))) :=
  match r with
  | Ok w => Ok (d_log w, map (d_mirror (d_mem w)) [11; 12; 13; 21; 22]%positive, (d_start (d_mem w), d_fin (d_mem w), d_end (d_mem w)), d_heap (d_mem w))
  | UB => UB
  | Fuel => Fuel
  end.
(** Observables that have been used: full, and with room for one. *)
Definition C141_m (l : list vcall) : dmem :=
  match drun C141_u8 (dstarted C141_u8 (dnew (fun _ => 0)) (fun _ => l)) (repeat 0%nat 80) with Ok w => d_mem w | _ => dnew (fun _ => 0) end.
Definition C141_full : list vcall := [VOp (Assign 5); VAdd 11; VAdd 12]%positive.
Definition C141_room : list vcall := [VOp (Assign 5); VAdd 11; VAdd 12; VAdd 13]%positive.
Example C141_ex_new : forall mi, holds (dnew mi) [] 0.
Proof. intros mi. exists []. repeat split. left. reflexivity. Qed.
Example C141_ex_holds :
  holds (C141_m C141_full) [11; 12]%positive 0 /\ holds (C141_m C141_room) [11; 12; 13]%positive 1 /\
  d_val (C141_m C141_full) = 5 /\ d_val (C141_m C141_room) = 5 /\ ~ overflows C141_u8 5 (AddEq 3).
Proof.
  split; [exists []|split; [exists [None]|]].
  1-2: vm_compute; repeat split; right; discriminate.
  split; [vm_compute; reflexivity|]. split; [vm_compute; reflexivity|]. intros [_ H]; apply H; vm_compute; split; discriminate.
Qed.
(** Each array replaced by one of twice its size. *)
Example C141_ex_alone :
  C141_view (drun C141_u8 (dstarted C141_u8 (dnew (fun _ => 0)) (fun _ => C141_room ++ [VOp (AddEq 3); VRemove 11]%positive)) (repeat 0%nat 120))
  = Ok (map (pair 0%nat) [Applied (Assign 5); VRet (VOp (Assign 5)) (RVal 5); VRet (VAdd 11) (RErr ok); VRet (VAdd 12) (RErr ok); VRet (VAdd 13) (RErr ok);
          Applied (AddEq 3); Store 11 8; Store 12 8; Store 13 8; VRet (VOp (AddEq 3)) (RVal 8); VRet (VRemove 11) (RErr ok)]%positive,
        [8; 8; 8; 0; 0], (3%nat, (3, 3)%nat, (3, 4)%nat),
        [Some []; None; None; Some [Some 12; Some 13; Some 13; None]]%positive).
Proof. vm_compute. reflexivity. Qed.
(** A registration lost; the old array read, and freed again. *)
Example C141_ex :
  C141_view (drun C141_u8 (dstarted C141_u8 (C141_m C141_room) (two 0 1 (VAdd 21) (VAdd 22))) (repeat 0%nat 11 ++ repeat 1%nat 20 ++ repeat 0%nat 3))%positive
  = Ok ([(1%nat, VRet (VAdd 22) (RErr ok)); (0%nat, VRet (VAdd 21) (RErr ok))]%positive, [0; 0; 0; 0; 0], (3%nat, (3, 4)%nat, (3, 4)%nat),
        [Some []; None; None; Some [Some 11; Some 12; Some 13; Some 22]]%positive) /\
  C141_view (drun C141_u8 (dstarted C141_u8 (C141_m C141_full) (two 0 1 (VOp (AddEq 3)) (VAdd 21))) (repeat 0%nat 5 ++ repeat 1%nat 30 ++ repeat 0%nat 1))%positive = UB /\
  C141_view (drun C141_u8 (dstarted C141_u8 (C141_m C141_full) (two 0 1 (VAdd 21) (VAdd 22))) (repeat 0%nat 10 ++ repeat 1%nat 30 ++ repeat 0%nat 10))%positive = UB.
Proof. split; [|split]; vm_compute; reflexivity. Qed.
(** The first registration during an update of a new observable. *)
Example C141_ex_first :
  C141_view (drun C141_u8 (dstarted C141_u8 (dnew (fun _ => 0)) (two 0 1 (VOp (AddEq 3)) (VAdd 21%positive))) ([0; 0] ++ repeat 1 20 ++ [0; 0])%nat) = UB.
Proof. vm_compute. reflexivity. Qed.

Print Assumptions C141_alone.
Print Assumptions C141_from_new.
Print Assumptions C141_lost_add_refuted.
Print Assumptions C141_freed_array_read_refuted.
Print Assumptions C141_mixed_iterators_refuted.
Print Assumptions C141_freed_twice_refuted.
Print Assumptions C141_told_after_clear_refuted.
Print Assumptions C141_races.
