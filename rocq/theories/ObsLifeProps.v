(** C106: an observer's end is not announced to the observables it is registered with. *)
From Verif Require Export ObsLifeProofs.

(** With observers whose callbacks do nothing: a call is undefined exactly when it enters the
    registered observers and one of them has ended. *)
Theorem C106_when_undefined : forall V Max (on_data : list (nev V) -> addr -> addr -> V -> nbody V) on_disc x c f,
  lreaches Max on_data on_disc x -> proper Max (living (n_log (l_net x))) c ->
  (forall log s o v, on_data log s o v = NReturn) -> (forall log s o, on_disc log s o = NReturn) ->
  (lrun Max on_data on_disc (S f) x (LCall c) = UB <->
     exists s o, enters_all (n_log (l_net x)) c s /\ In o (registered (n_log (l_net x)) s) /\ ~ In o (l_alive x)) /\
  lrun Max on_data on_disc (S f) x (LCall c) <> Fuel.
Proof.
  intros V Max on_data on_disc x c f R P QD QC. exact (silent_exact Max on_data on_disc QD QC f x c (lreach_ninv Max on_data on_disc x R) P).
Qed.

(** Whatever the callbacks do, a scope that declares the observable before the observers it
    registers never ends properly ... *)
Theorem C106_observable_first_refuted : forall V Max (on_data : list (nev V) -> addr -> addr -> V -> nbody V) on_disc x s obs f,
  lreaches Max on_data on_disc x -> ~ In s (living (n_log (l_net x))) -> NoDup obs -> obs <> [] ->
  (forall o, In o obs -> ~ In o (l_alive x)) -> (length obs <= max_observers (Max s))%nat ->
  (forall y, lrun_all Max on_data on_disc f x (observable_first s obs) <> Ok y) /\
  ((forall log s o v, on_data log s o v = NReturn) -> (forall log s o, on_disc log s o = NReturn) ->
   lrun_all Max on_data on_disc (S f) x (observable_first s obs) = UB).
Proof.
  intros V Max on_data on_disc x s obs f R NL ND NE NA C. pose proof (lreach_ninv Max on_data on_disc x R) as I. split.
  - exact (observable_first_never Max on_data on_disc f x s obs I NL ND NE NA C).
  - intros QD QC. exact (observable_first_ub Max on_data on_disc QD QC f x s obs I NL ND NE NA C).
Qed.

(** ... while with the observers declared first every one of them is told, once, in order. *)
Theorem C106_observers_first : forall V Max (on_data : list (nev V) -> addr -> addr -> V -> nbody V) on_disc x s obs f,
  lreaches Max on_data on_disc x -> ~ In s (living (n_log (l_net x))) -> NoDup obs ->
  (forall o, In o obs -> ~ In o (l_alive x)) -> (length obs <= max_observers (Max s))%nat ->
  (forall log s o, on_disc log s o = NReturn) ->
  exists y, lrun_all Max on_data on_disc (S f) x (observers_first s obs) = Ok y /\
    (forall o, In o (l_alive y) <-> In o (l_alive x)) /\
    n_log (l_net y) = n_log (l_net x) ++ NRet (NMake s) ok :: map (fun o => NRet (NAdd s o) ok) obs ++
      map (fun o => NDisc s o) obs ++ [NRet (NDestroy s) ok].
Proof.
  intros V Max on_data on_disc x s obs f R NL ND NA C QC.
  exact (observers_first_ok Max on_data on_disc QC f x s obs (lreach_ninv Max on_data on_disc x R) NL ND NA C).
Qed.

(** A client that adds only existing observers and ends one only once it is registered nowhere,
    with callbacks that add only existing observers and leave lifetimes alone: no call that
    returns has entered an observer that has ended, also when callbacks removed observers
    during the loop. *)
Theorem C106_careful : forall V Max (on_data : list (nev V) -> addr -> addr -> V -> nbody V) on_disc x c f w e,
  careful Max on_data on_disc x -> careful_call on_data on_disc x c ->
  nrun Max on_data on_disc f (l_net x) c = Ok (w, e) ->
  lrun Max on_data on_disc f x (LCall c) = Ok (Life w (l_alive x)).
Proof. intros V Max on_data on_disc x c f w e. exact (careful_safe Max on_data on_disc x c f w e). Qed.

(** ... and every proper call returns when the callbacks call living observables and those for
    disconnection clear none. *)
Theorem C106_careful_ends : forall V Max (on_data : list (nev V) -> addr -> addr -> V -> nbody V) on_disc x c f,
  careful Max on_data on_disc x -> careful_call on_data on_disc x c -> proper Max (living (n_log (l_net x))) c ->
  (forall log s o v, living log = living (n_log (l_net x)) -> plain (living (n_log (l_net x))) (on_data log s o v)) ->
  (forall log s o, living log = living (n_log (l_net x)) -> plain (living (n_log (l_net x))) (on_disc log s o)) ->
  (forall log s o, no_nclear (on_disc log s o)) -> (2 * length (living (n_log (l_net x))) + 2 <= f)%nat ->
  exists w, lrun Max on_data on_disc f x (LCall c) = Ok (Life w (l_alive x)).
Proof. intros V Max on_data on_disc x c f. exact (careful_done Max on_data on_disc x c f). Qed.

(** Examples: observable 10, observers 1, 2. *)
Definition quiet_d : list (nev Z) -> addr -> addr -> Z -> nbody Z := fun _ _ _ _ => NReturn.
Definition quiet_c : list (nev Z) -> addr -> addr -> nbody Z := fun _ _ _ => NReturn.
(** On data observer 1 removes itself, and then observer 2, from its source. *)
Definition leaving : list (nev Z) -> addr -> addr -> Z -> nbody Z :=
  fun _ s o _ => if Pos.eqb o 1 then NDo (NRemove s 1) (fun _ => NDo (NRemove s 2) (fun _ => NReturn)) else NReturn.

Example scope_bad : lrun_all (fun _ => 8) quiet_d quiet_c 5 (Life nothing []) (observable_first 10 [1; 2]%positive) = UB.
Proof. vm_compute. reflexivity. Qed.
Example scope_good : exists y, lrun_all (fun _ => 8) quiet_d quiet_c 5 (Life nothing []) (observers_first 10 [1; 2]%positive) = Ok y.
Proof. vm_compute. eexists. reflexivity. Qed.
Example ended_while_registered :
  lrun_all (fun _ => 8) quiet_d quiet_c 5 (Life nothing [])
    [LBorn 1; LCall (NMake 10); LCall (NAdd 10 1); LEnd 1; LCall (NNotify 10 7%Z)]%positive = UB /\
  exists y, lrun_all (fun _ => 8) quiet_d quiet_c 5 (Life nothing [])
    [LBorn 1; LCall (NMake 10); LCall (NAdd 10 1); LEnd 1; LCall (NRemove 10 1); LCall (NNotify 10 7%Z)]%positive = Ok y.
Proof. vm_compute. split; [reflexivity|eexists; reflexivity]. Qed.
(** The second observer is entered after it was removed during the loop: it must still exist. *)
Example careful_example : exists x,
  lrun_all (fun _ => 8) leaving quiet_c 5 (Life nothing [])
    [LBorn 1; LBorn 2; LCall (NMake 10); LCall (NAdd 10 1); LCall (NAdd 10 2)]%positive = Ok x /\
  careful (fun _ => 8) leaving quiet_c x /\ careful_call leaving quiet_c x (NNotify 10%positive 7) /\
  exists w, lrun (fun _ => 8) leaving quiet_c 5 x (LCall (NNotify 10%positive 7)) = Ok (Life w (l_alive x)) /\
    In (NData 10 2 7) (n_log w) /\ registered (n_log w) 10 = [].
Proof.
  assert (CC : forall w c, (forall s o, c = NAdd s o -> In o [2; 1]%positive) -> careful_call leaving quiet_c (Life w [2; 1]%positive) c).
  { intros w c H. split; [exact H|]. split; [|intros; constructor]. intros log s o v. unfold leaving. destruct (Pos.eqb o 1); [|constructor].
    constructor; [discriminate|discriminate|]. intros e. constructor; [discriminate|discriminate|]. intros e'. constructor. }
  pose proof (careful_start (fun _ => 8) leaving quiet_c) as C0.
  eassert (C1 : careful (fun _ => 8) leaving quiet_c _) by (eapply (careful_born _ _ _ _ 1%positive 5%nat _ C0); vm_compute; reflexivity).
  eassert (C2 : careful (fun _ => 8) leaving quiet_c _) by (eapply (careful_born _ _ _ _ 2%positive 5%nat _ C1); vm_compute; reflexivity).
  eassert (C3 : careful (fun _ => 8) leaving quiet_c _)
    by (eapply (careful_do _ _ _ _ (NMake 10%positive) 5%nat _ C2); [apply CC; discriminate|vm_compute; reflexivity]).
  eassert (C4 : careful (fun _ => 8) leaving quiet_c _)
    by (eapply (careful_do _ _ _ _ (NAdd 10%positive 1%positive) 5%nat _ C3);
        [apply CC; intros s o H; inversion H; cbn; auto|vm_compute; reflexivity]).
  eassert (C5 : careful (fun _ => 8) leaving quiet_c _)
    by (eapply (careful_do _ _ _ _ (NAdd 10%positive 2%positive) 5%nat _ C4);
        [apply CC; intros s o H; inversion H; cbn; auto|vm_compute; reflexivity]).
  eexists. split; [|split; [exact C5|]]; [vm_compute; reflexivity|].
  split; [apply CC; discriminate|]. eexists. split; [vm_compute; reflexivity|]. split; [cbn; auto 20|vm_compute; reflexivity].
Qed.

Print Assumptions C106_when_undefined.
Print Assumptions C106_observable_first_refuted.
Print Assumptions C106_observers_first.
Print Assumptions C106_careful.
Print Assumptions C106_careful_ends.
