(** Property C99: pipeline stages whose functions push into the next stage. *)
From Verif Require Import PipelineProofs2 ChainProofs.

(** [B m]: BufferSize of stage [m]; [f m]: what its function computes; [total progs]: how
    many items the producers push altogether.  Stages are destroyed front to back.  Every
    stage sees the items in the order in which the first one accepted them. *)
Theorem C99_chain_in_order B f n progs s ws m w :
  (forall k, (0 < B k)%nat) -> (forall k, (k < n)%nat -> (total progs <= B k)%nat) ->
  front_to_back B f (jstart B n progs) s -> jrun B f (jstart B n progs) s = Ok ws ->
  nth_error ws m = Some w ->
  (exists rest, map (through f m) (accepted ws) = processed w 0 ++ rest) /\
  ((forall x, In x ws -> all_done x) ->
     processed w 0 = map (through f m) (accepted ws) /\ Permutation (accepted ws) (concat progs)).
Proof.
  intros BP CAP F R E. destruct (jrun_inv B f n progs BP s _ (jinv_start B f n progs BP) F) as (ws' & R' & J).
  assert (ws' = ws) as -> by congruence. split.
  - apply (processed_prefix B f n progs BP CAP ws J m w E).
  - intros D. exact (all_ended B f n progs BP CAP ws J D m w E).
Qed.
(** Nothing undefined happens, whatever the load. *)
Theorem C99_chain_never_undefined B f n progs s :
  (forall k, (0 < B k)%nat) -> front_to_back B f (jstart B n progs) s ->
  exists ws, jrun B f (jstart B n progs) s = Ok ws.
Proof.
  intros BP F. destruct (jrun_inv B f n progs BP s _ (jinv_start B f n progs BP) F) as (ws & R & _).
  exists ws. exact R.
Qed.
(** A stage being destroyed ends after finitely many steps of its worker, pushes into the
    next stage included. *)
Theorem C99_chain_destructors_return B f n progs s ws m w s' ws' w' :
  (forall k, (0 < B k)%nat) -> front_to_back B f (jstart B n progs) (s ++ s') ->
  jrun B f (jstart B n progs) s = Ok ws -> nth_error ws m = Some w -> p_closed w = true ->
  jrun B f ws s' = Ok ws' -> (20 * waiting w 0 + 23 <= work_of m s')%nat ->
  nth_error ws' m = Some w' -> all_done w'.
Proof.
  intros BP F R E C R' L E'.
  assert (G : forall s1 w0, front_to_back B f w0 (s1 ++ s') -> jrun B f w0 s1 = Ok ws ->
            front_to_back B f w0 s1 /\ front_to_back B f ws s').
  { induction s1 as [|a s1 IH]; intros w0 F0 R0; cbn [app jrun front_to_back] in *.
    - inversion R0; subst. split; [exact Logic.I|exact F0].
    - destruct F0 as [F1 F2]. destruct (jstep B f w0 a) as [w1| |] eqn:E1; cbn [bind] in R0; try discriminate.
      destruct (IH w1 (F2 w1 eq_refl) R0) as [H1 H2]. split; [|exact H2]. split; [exact F1|].
      intros w2 E2. assert (w2 = w1) as -> by congruence. exact H1. }
  destruct (G s _ F R) as [F1 F2].
  destruct (jrun_inv B f n progs BP s _ (jinv_start B f n progs BP) F1) as (x & RX & J).
  assert (x = ws) as -> by congruence.
  exact (stage_ends B f n progs BP ws s' ws' m w w' J F2 R' E C L E').
Qed.
(** Destroying the second stage while the first still works is undefined. *)
Theorem C99_back_to_front_refuted B f v :
  (0 < B 0%nat)%nat -> exists s, jrun B f (jstart B 2 [[v]]) s = UB.
Proof. intros H. eexists. apply early_destroy, H. Qed.

(** Three stages, two producers, destroyed front to back. *)
Definition C99_sched : list jagent :=
  [Outside 0; Outside 1; Outside 1; Outside 1; Work 0; Work 0; Outside 0; Outside 0] ++
  repeat (Work 0) 6 ++ [Work 1; Outside 0; Outside 0; Outside 0; Work 1] ++ repeat (Work 0) 30 ++
  [Destroy 0] ++ repeat (Work 0) 10 ++ repeat (Work 1) 40 ++ [Destroy 1] ++ repeat (Work 1) 10 ++
  [Destroy 2] ++ repeat (Work 2) 30.
Example C99_example :
  let B := fun _ => 4%nat in let f := fun m x => if (m =? 0)%nat then x + 1 else x * 10 in
  match jrun B f (jstart B 3 [[5; 6]; [7]]) C99_sched with
  | Ok [a; b; c] => processed a 0 = [5; 7; 6] /\ processed b 0 = [6; 8; 7] /\ processed c 0 = [60; 80; 70] /\
                    p_workers a = [WDone] /\ p_workers b = [WDone] /\ p_workers c = [WDone]
  | _ => False
  end.
Proof. vm_compute. repeat split; reflexivity. Qed.
Example C99_example_order :
  let B := fun _ => 4%nat in let f := fun m x => if (m =? 0)%nat then x + 1 else x * 10 in
  front_to_back B f (jstart B 3 [[5; 6]; [7]]) C99_sched.
Proof.
  cbv zeta. unfold C99_sched. cbn [app repeat].
  repeat (split; [first [exact Logic.I | intros w E; vm_compute in E; injection E as <-; intros pc [<-|[]]; reflexivity]
                 |intros ws E; vm_compute in E; injection E as <-]).
  exact Logic.I.
Qed.

Print Assumptions C99_chain_in_order.
Print Assumptions C99_chain_never_undefined.
Print Assumptions C99_chain_destructors_return.
Print Assumptions C99_back_to_front_refuted.
