(** C134 and C135: value observables shared by threads. *)
From Coq Require Import Permutation.
From Verif Require Import VShareProofs2.

Definition u8 : ity := {| i_bits := 8; i_signed := false |}.
Definition zeros (o : addr) : Z := 0.
(** Of the observeds 1, 2, 3 the middle one has no function. *)
Definition obs3 : list addr := [1; 2; 3]%positive.
Definition fn (o : addr) : bool := negb (Pos.eqb o 2).
Definition demo : list (list gcmd) := [[GUpd PreInc; GValue]; [GUpd (AddEq 5); GSeen 1%positive]; [GUpd PostDec]].
(** Threads 0, 1, 2 update in this order; then 1 tells everyone, then 2, then 0. *)
Definition demo_run : list nat := [0; 1; 2]%nat ++ repeat 1%nat 9 ++ repeat 2%nat 8 ++ repeat 0%nat 9.
Definition doneb (w : gworld) : bool := forallb (fun th => match g_todo th, g_next th with [], [] => true | _, _ => false end) (g_threads w).
Lemma doneb_ok w : doneb w = true -> all_done w.
Proof.
  unfold doneb, all_done. rewrite forallb_forall, Forall_forall. intros H th I. specialize (H th I).
  destruct (g_todo th); [|discriminate]. destruct (g_next th); [auto|discriminate].
Qed.

Definition is_ok (r : res gworld) : bool := match r with Ok _ => true | _ => false end.
Lemma got (P : gworld -> Prop) r : is_ok r = true -> (forall w, r = Ok w -> P w) -> exists w, r = Ok w /\ P w.
Proof. destruct r as [w| |]; cbn; intros H HP; try discriminate. exists w. auto. Qed.
Definition out {A} (f : gworld -> A) (r : res gworld) : option A := match r with Ok w => Some (f w) | _ => None end.
Lemma out_ok {A} (f : gworld -> A) r w a : r = Ok w -> out f r = Some a -> f w = a.
Proof. intros -> E. cbn in E. injection E as <-. reflexivity. Qed.
Ltac got_it := let w := fresh "w" in let E := fresh "E" in
  apply got; [vm_compute; reflexivity|]; intros w E;
  repeat match goal with |- _ /\ _ => split end;
  try (apply doneb_ok; apply (out_ok doneb _ w _ E); vm_compute; reflexivity);
  match goal with |- ?x = ?y => match eval pattern w in x with ?f w => exact (out_ok f _ w y E ltac:(vm_compute; reflexivity)) end | _ => idtac end.

(** C134: no step of any interleaving is undefined as long as no operator can overflow in its own
    addition. *)
Theorem C134_defined t obs cb v m progs s :
  ity_ok t -> in_ity t v -> (forall prog op x, In prog progs -> In (GUpd op) prog -> in_ity t x -> ~ overflows t x op) ->
  exists w, grun t obs cb (gstart v m progs) s = Ok w.
Proof. intros T V NO. exact (run_defined t obs cb T v m progs s V NO). Qed.
Example C134_defined_ex : forall prog op x, In prog demo -> In (GUpd op) prog -> in_ity u8 x -> ~ overflows u8 x op.
Proof.
  intros prog op x P O X [_ N]. unfold in_ity in *. cbn in X.
  destruct P as [<-|[<-|[<-|[]]]]; cbn in O; destruct O as [O|O]; try (destruct O as [O|O]); try contradiction; try discriminate; injection O as <-; try contradiction;
    apply N; cbn; lia.
Qed.

(** Each thread does its operators one after the other, each in full: the update, then for every
    registered observed in order the store followed by its function called with the published
    value, then the return; a thread that has not finished has done a beginning of that. *)
Theorem C134_calls t obs cb v m progs s w i prog :
  grun t obs cb (gstart v m progs) s = Ok w -> nth_error progs i = Some prog ->
  exists dn todo blocks tail, prog = dn ++ todo /\ Forall2 (whole t obs cb) dn blocks /\
    of_thread i (g_log w) ++ tail = concat blocks /\ (all_done w -> todo = [] /\ tail = []).
Proof.
  intros E P. destruct (run_shape t obs cb v m progs s w E) as [L H].
  destruct (nth_error (g_threads w) i) as [th|] eqn:ET.
  - destruct (H i th ET) as (dn & blocks & H1 & H2 & H3). rewrite P in H1. injection H1 as ->.
    exists dn, (g_todo th), blocks, (g_next th). split; [reflexivity|]. split; [exact H2|]. split; [symmetry; exact H3|].
    intros D. unfold all_done in D. rewrite Forall_forall in D. apply D. exact (nth_error_In _ _ ET).
  - exfalso. apply nth_error_None in ET. assert (i < length progs)%nat by (apply nth_error_Some; congruence). lia.
Qed.
Example C134_calls_ex : exists w, grun u8 obs3 fn (gstart 0 zeros demo) demo_run = Ok w /\ all_done w /\
  of_thread 1 (g_log w) = [Updated (AddEq 5) 1 6; Stored 1 6; Entered 1 6; Left 1 6; Stored 2 6; Stored 3 6; Entered 3 6; Left 3 6; Returned 6; GotSeen 1 6].
Proof. got_it. Qed.

(** There is one order of all updates and reads: every operator finds, and every value() returns,
    the arithmetic result of the updates before it; an observed's value() returns what it stored
    last. *)
Theorem C134_atomic t obs cb v m progs s w :
  ity_ok t -> grun t obs cb (gstart v m progs) s = Ok w ->
  g_val w = value_after t v (g_log w) /\ (forall o, g_mirror w o = seen_after m (g_log w) o) /\
  forall l1 j e l2, g_log w = l1 ++ (j, e) :: l2 ->
    match e with
    | Updated op x p => x = value_after t v l1 /\ published t x op = Ok p
    | Got z => z = value_after t v l1
    | GotSeen o z => z = seen_after m l1 o
    | _ => True
    end.
Proof. intros T E. exact (run_history t obs cb T v m progs s w E). Qed.
Example C134_atomic_ex : exists w, grun u8 obs3 fn (gstart 0 zeros demo) demo_run = Ok w /\ g_val w = 5 /\ g_mirror w 1%positive = 1 /\
  reads (g_log w) = [5] /\ reads_of 1 (g_log w) = [6].
Proof. got_it. Qed.

(** No call of a function is lost or doubled: when all threads are through, the function of each
    registered observed was called once with each published value, in some order. *)
Theorem C134_each_value_once t obs cb v m progs s w o :
  grun t obs cb (gstart v m progs) s = Ok w -> all_done w -> NoDup obs -> In o obs -> cb o = true ->
  Permutation (arguments o (g_log w)) (publications (g_log w)).
Proof.
  intros E D ND IO CB. pose proof (run_once t obs cb o v m progs s w ND IO CB E) as O. unfold once in O.
  rewrite (done_pend o w D), app_nil_r in O. exact O.
Qed.
Example C134_each_value_once_ex : exists w, grun u8 obs3 fn (gstart 0 zeros demo) demo_run = Ok w /\ all_done w /\
  publications (g_log w) = [1; 6; 6] /\ arguments 3 (g_log w) = [6; 6; 1].
Proof. got_it. Qed.

(** A shared counter: if all updates are ++x, the published values are v+1, v+2, ... without gap
    or repetition (modulo the width), as many as there are updates; so no two calls of ++x return
    the same number before it wraps. *)
Theorem C134_counter t obs cb v m progs s w :
  ity_ok t -> in_ity t v -> only_ops (fun op => op = PreInc) progs -> grun t obs cb (gstart v m progs) s = Ok w ->
  let k := length (publications (g_log w)) in
  publications (g_log w) = map (fun n => conv t (v + Z.of_nat n)) (seq 1 k) /\ g_val w = conv t (v + Z.of_nat k) /\
  (k <= updates progs)%nat /\ (all_done w -> k = updates progs).
Proof.
  intros T V ON E. destruct (run_counted t obs cb v m progs s w T V ON E) as (H1 & H2 & H3). cbn.
  split; [exact H1|]. split; [exact H2|]. split; [lia|]. intros D. rewrite (done_left w D) in H3. lia.
Qed.
Definition counters : list (list gcmd) := [[GUpd PreInc; GUpd PreInc]; [GValue; GUpd PreInc; GValue]].
Definition counters_run : list nat := [1; 0; 1]%nat ++ repeat 0%nat 9 ++ repeat 1%nat 9 ++ repeat 0%nat 8.
Example C134_counter_ex : exists w, grun u8 obs3 fn (gstart 254 zeros counters) counters_run = Ok w /\ all_done w /\
  publications (g_log w) = [255; 0; 1] /\ updates counters = 3%nat.
Proof. got_it. Qed.

(** ... and as long as it does not wrap no value() anywhere goes back. *)
Theorem C134_value_never_back t obs cb v m progs s w :
  ity_ok t -> in_ity t v -> v + Z.of_nat (updates progs) <= hi t -> only_ops (fun op => op = PreInc) progs ->
  grun t obs cb (gstart v m progs) s = Ok w -> increasing (reads (g_log w)).
Proof. exact (run_rising t obs cb v m progs s w). Qed.
Example C134_value_never_back_ex : exists w, grun u8 obs3 fn (gstart 0 zeros counters) counters_run = Ok w /\
  0 + Z.of_nat (updates counters) <= hi u8 /\ reads (g_log w) = [0; 3].
Proof. got_it. vm_compute. discriminate. Qed.

Ltac steps := repeat (cbn [grun]; unfold gstep at 1; cbn [nth_error g_threads g_val g_mirror g_log gput bind rest_of_update flat_map tell app]).
(** But the functions are not called in the order of the updates: two threads, each ++x once, can
    call it with v+2 first and v+1 last, and then the observed holds v+1 for good although the
    value is v+2. *)
Theorem C134_order_refuted t v m o :
  ity_ok t -> in_ity t v -> v + 2 <= hi t ->
  exists s w, grun t [o] (fun _ => true) (gstart v m [[GUpd PreInc]; [GUpd PreInc]]) s = Ok w /\ all_done w /\
    publications (g_log w) = [v + 1; v + 2] /\ arguments o (g_log w) = [v + 2; v + 1] /\ g_val w = v + 2 /\ g_mirror w o = v + 1.
Proof.
  intros T V R. exists (0 :: 1 :: repeat 1 4 ++ repeat 0 4)%nat. change [[GUpd PreInc]; [GUpd PreInc]] with two.
  eexists. split; [cbn [repeat app]; rewrite (two_updated t v m o T V R); unfold first_two; steps; timeout 30 reflexivity|].
  cbn [g_log g_val g_mirror g_threads publications arguments flat_map snd app]. rewrite !Pos.eqb_refl. unfold set_mirror. rewrite Pos.eqb_refl.
  split; [repeat constructor|]. repeat split.
Qed.
Example C134_order_refuted_ex : in_ity u8 253 /\ 253 + 2 <= hi u8.
Proof. vm_compute. repeat split; discriminate. Qed.

(** Nor one at a time: two threads can be in the function of one observed at the same time, and
    then the observed's value() differs from the argument in one of them. *)
Theorem C134_overlap_refuted t v m o :
  ity_ok t -> in_ity t v -> v + 2 <= hi t ->
  exists s w, grun t [o] (fun _ => true) (gstart v m [[GUpd PreInc]; [GUpd PreInc]]) s = Ok w /\
    in_function 0 o (v + 1) (g_log w) /\ in_function 1 o (v + 2) (g_log w) /\ g_mirror w o = v + 2.
Proof.
  intros T V R. exists (0 :: 1 :: [0; 0; 1; 1])%nat. change [[GUpd PreInc]; [GUpd PreInc]] with two.
  eexists. split; [rewrite (two_updated t v m o T V R); unfold first_two; steps; timeout 30 reflexivity|].
  unfold in_function. cbn [g_log g_val g_mirror of_thread flat_map fst snd app Nat.eqb]. unfold set_mirror. rewrite Pos.eqb_refl.
  split; [exists [Updated PreInc v (v + 1); Stored o (v + 1)]; reflexivity|]. split; [exists [Updated PreInc (v + 1) (v + 2); Stored o (v + 2)]; reflexivity|reflexivity].
Qed.
Example C134_overlap_refuted_ex : in_ity u8 0 /\ 0 + 2 <= hi u8.
Proof. vm_compute. repeat split; discriminate. Qed.

(** C135: if only one thread uses =, +=, -= and ++x while any number of threads read, then in a
    function both the observed's value() and the observable's are the argument. *)
Theorem C135_in_function t obs cb i v m progs s w o n :
  ity_ok t -> one_writer i progs -> only_ops (fun op => faithful_op op = true) progs ->
  grun t obs cb (gstart v m progs) s = Ok w -> in_function i o n (g_log w) -> g_mirror w o = n /\ g_val w = n.
Proof. intros T OW ON E F. destruct (run_state t obs cb i T v m progs s w OW ON E) as (_ & _ & _ & W). exact (writing_function obs cb i v m w o n W F). Qed.
Definition readers : list (list gcmd) := [[GUpd PreInc; GUpd (Assign 9)]; [GSeen 3%positive; GValue; GSeen 3%positive]; [GSeen 1%positive; GSeen 3%positive]].
Lemma readers_one : one_writer 0 readers.
Proof.
  intros [|[|[|j]]] prog c P C U; cbn in P; try reflexivity; try (destruct j; discriminate); injection P as <-; cbn in C;
    repeat (destruct C as [<-|C]; [discriminate|]); contradiction.
Qed.
Lemma readers_ops : only_ops (fun op => faithful_op op = true) readers.
Proof.
  intros prog op P C. destruct P as [<-|[<-|[<-|[]]]]; cbn in C; repeat (destruct C as [C|C]; [injection C as <- || discriminate C; try reflexivity|]); contradiction.
Qed.
Example C135_in_function_ex : one_writer 0 readers /\ only_ops (fun op => faithful_op op = true) readers /\
  exists w, grun u8 obs3 fn (gstart 0 zeros readers) ([1] ++ repeat 0 10 ++ [1; 0; 0; 2; 2])%nat = Ok w /\ in_function 0 1 9 (g_log w) /\
    reads_of 3 (g_log w) = [0; 1] /\ reads (g_log w) = [9] /\ reads_of 1 (g_log w) = [9].
Proof.
  split; [exact readers_one|]. split; [exact readers_ops|]. got_it.
  exists [Updated PreInc 0 1; Stored 1 1; Entered 1 1; Left 1 1; Stored 2 1; Stored 3 1; Entered 3 1; Left 3 1; Returned 1; Updated (Assign 9) 1 9; Stored 1 9].
  exact (out_ok (fun w => of_thread 0 (g_log w)) _ w _ E ltac:(vm_compute; reflexivity)).
Qed.

(** When an operator has returned, every registered observed holds the value, whatever it held
    before; so does value(). *)
Theorem C135_after_return t obs cb i v m progs s w p es :
  ity_ok t -> one_writer i progs -> only_ops (fun op => faithful_op op = true) progs ->
  grun t obs cb (gstart v m progs) s = Ok w -> of_thread i (g_log w) = es ++ [Returned p] ->
  g_val w = p /\ forall o, In o obs -> g_mirror w o = p.
Proof. intros T OW ON E F. destruct (run_state t obs cb i T v m progs s w OW ON E) as (_ & _ & _ & W). exact (writing_return obs cb i v m w es p W F). Qed.
Example C135_after_return_ex : exists es w, grun u8 obs3 fn (gstart 0 (fun _ => 77) readers) (1 :: repeat 0 9 ++ [2])%nat = Ok w /\
  of_thread 0 (g_log w) = es ++ [Returned 1] /\ reads_of 3 (g_log w) = [77] /\ reads_of 1 (g_log w) = [1].
Proof. exists [Updated PreInc 0 1; Stored 1 1; Entered 1 1; Left 1 1; Stored 2 1; Stored 3 1; Entered 3 1; Left 3 1]. got_it. Qed.

(** At any moment an observed holds the value or the one before the last update. *)
Theorem C135_lag t obs cb i v m progs s w o :
  ity_ok t -> one_writer i progs -> only_ops (fun op => faithful_op op = true) progs -> (forall o, In o obs -> m o = v) ->
  grun t obs cb (gstart v m progs) s = Ok w -> In o obs -> g_mirror w o = g_val w \/ g_mirror w o = before_last v (g_log w).
Proof. intros T OW ON B E O. destruct (run_state t obs cb i T v m progs s w OW ON E) as (_ & _ & _ & W). exact (writing_lag obs cb i v m w o W B O). Qed.
Example C135_lag_ex : exists w, grun u8 obs3 fn (gstart 0 zeros readers) (repeat 0 13)%nat = Ok w /\
  g_val w = 9 /\ before_last 0 (g_log w) = 1 /\ g_mirror w 1%positive = 9 /\ g_mirror w 3%positive = 1.
Proof. got_it. Qed.

(** If the one thread only counts up and does not wrap, no observed's value() goes back. *)
Theorem C135_never_back t obs cb i v m progs s w o :
  ity_ok t -> in_ity t v -> v + Z.of_nat (updates progs) <= hi t -> one_writer i progs -> only_ops (fun op => op = PreInc) progs ->
  (forall o, In o obs -> m o = v) -> In o obs -> grun t obs cb (gstart v m progs) s = Ok w -> increasing (reads_of o (g_log w)).
Proof. intros T V B OW ON M O E. exact (run_follows t obs cb i T v m progs s w o V B OW ON M O E). Qed.
(** With two counting threads it can. *)
Theorem C135_two_back_refuted t v m o :
  ity_ok t -> in_ity t v -> v + 2 <= hi t ->
  exists s w, grun t [o] (fun _ => true) (gstart v m [[GUpd PreInc; GSeen o]; [GUpd PreInc; GSeen o]]) s = Ok w /\
    reads_of o (g_log w) = [v + 2; v + 1].
Proof.
  intros T V R. exists [0; 1; 1; 1; 1; 1; 1; 0; 0; 0; 0; 0]%nat.
  destruct (inc_ok t v m o T V R v V ltac:(lia)) as [P1 A1]. destruct (inc_ok t v m o T V R (v + 1) ltac:(unfold in_ity in *; lia) ltac:(lia)) as [P2 A2].
  eexists. split.
  - cbn [app grun]. unfold gstart, gstep at 1. cbn [map nth_error g_threads g_val g_mirror g_log gput app]. rewrite P1, A1. cbn [bind].
    unfold gstep at 1. cbn [map nth_error g_threads g_val g_mirror g_log gput app]. rewrite P2, A2. cbn [bind]. steps. timeout 30 reflexivity.
  - cbn [g_log reads_of flat_map snd app]. rewrite !Pos.eqb_refl. unfold set_mirror. rewrite !Pos.eqb_refl. cbn [app]. rewrite <- !Z.add_assoc. reflexivity.
Qed.
Definition one_counter : list (list gcmd) := [[GUpd PreInc; GUpd PreInc]; [GSeen 3%positive; GSeen 3%positive]].
Example C135_never_back_ex : one_writer 0 one_counter /\ only_ops (fun op => op = PreInc) one_counter /\
  exists w, grun u8 obs3 fn (gstart 7 (fun _ => 7) one_counter) ([0; 1] ++ repeat 0 9 ++ [1])%nat = Ok w /\ reads_of 3 (g_log w) = [7; 8].
Proof.
  split; [|split].
  - intros [|[|j]] prog c P C U; cbn in P; try reflexivity; try (destruct j; discriminate); injection P as <-; cbn in C; repeat (destruct C as [<-|C]; [discriminate|]); contradiction.
  - intros prog op P C. destruct P as [<-|[<-|[]]]; cbn in C; repeat (destruct C as [C|C]; [injection C as <- || discriminate C; try reflexivity|]); contradiction.
  - got_it.
Qed.

Print Assumptions C134_defined.
Print Assumptions C134_calls.
Print Assumptions C134_atomic.
Print Assumptions C134_each_value_once.
Print Assumptions C134_counter.
Print Assumptions C134_value_never_back.
Print Assumptions C134_order_refuted.
Print Assumptions C134_overlap_refuted.
Print Assumptions C135_in_function.
Print Assumptions C135_after_return.
Print Assumptions C135_lag.
Print Assumptions C135_never_back.
Print Assumptions C135_two_back_refuted.
