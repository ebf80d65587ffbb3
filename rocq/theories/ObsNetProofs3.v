(** The client's view of a network: lifetimes, copies, forwarding. *)
From Verif Require Export ObsNetProofs2.

Section Client.
  Context {V : Type}.
  Variable Max : addr -> Z.
  Variable on_data : list (nev V) -> addr -> addr -> V -> nbody V.
  Variable on_disc : list (nev V) -> addr -> addr -> nbody V.
  Notation cap s := (max_observers (Max s)).
  Notation nrun := (nrun Max on_data on_disc).
  Notation ninv := (@ninv V Max).
  Notation ext := (@ext V Max).

  Lemma dead_cell w s : ninv w -> ~ In s (living (n_log w)) -> n_cell w s = None.
  Proof. intros I H. destruct (n_cell w s) eqn:E; [|reflexivity]. exfalso. apply H. apply (n_live _ w I). congruence. Qed.

  (** A client's call with callbacks as in ObsNetProofs2. *)
  Lemma client_must halts f w c :
    (forall log s o v, living log = living (n_log w) -> plain (living (n_log w)) (on_data log s o v)) ->
    (forall log s o, living log = living (n_log w) -> plain (living (n_log w)) (on_disc log s o)) ->
    (halts = true -> (forall log s o, no_nclear (on_disc log s o)) /\ (2 * idle (n_log w) + 2 <= f)%nat) ->
    ninv w -> proper Max (living (n_log w)) c -> must halts (fun _ => True) (nrun f w c).
  Proof.
    intros PD PC HB I P.
    assert (GEN : forall c, allowed w c -> must halts (fun _ => True) (nrun f w c)).
    { intros d AL. destruct halts.
      - destruct (HB eq_refl) as (NC & B).
        pose proof (nrun_done Max on_data on_disc _ PD PC NC f w d I eq_refl AL ltac:(destruct d; lia)) as D.
        unfold must, done in *. destruct (nrun f w d); auto.
      - pose proof (nrun_fine Max on_data on_disc _ PD PC f w d I eq_refl AL) as D.
        unfold must, fine in *. destruct (nrun f w d); auto. }
    destruct f as [|f].
    { destruct halts; [destruct (HB eq_refl); lia|exact Logic.I]. }
    destruct c as [s|a s|a s|s|s o|s o|s|s v]; try (apply GEN; eexists; split; [reflexivity|exact P]); cbn [proper] in P; cbn [ObsNetModel.nrun].
    - rewrite (dead_cell w s I P). cbn [bind]. apply must_ok. exact Logic.I.
    - destruct P as (A & N & M). destruct (live_cell Max w a I A) as (x & E). unfold at_. rewrite E. cbn [bind].
      rewrite (dead_cell w s I N), M, Z.eqb_refl. cbn [bind]. apply must_ok. exact Logic.I.
    - destruct P as (A & N & M). destruct (live_cell Max w a I A) as (x & E). destruct (live_cell Max w s I N) as (y & E2).
      unfold at_. rewrite E, E2. cbn [bind]. rewrite M, Z.eqb_refl. cbn [bind]. apply must_ok. exact Logic.I.
    - clear GEN. set (can := fun (u : net V) (d : ncall V) => if halts then (2 * idle (n_log u) + (match d with NClear _ => 2 | _ => 1 end) <= f)%nat else True : Prop).
      assert (CL : must halts (fun w' => exists w1 x1, ext w w1 /\ n_cell w1 s = Some x1 /\
              w' = place w1 s (Some (Cell (k_slots x1) 0 (k_inside x1)))) (nclear on_disc (nrun f) s w)).
      { apply (clear_must Max on_data on_disc _ PD PC halts (nrun f) can); auto.
        - intros u u' d X. unfold can. destruct halts; [|auto]. rewrite (idle_ext Max _ _ X). auto.
        - intros u d IU LU AU CU. unfold must, can in *. destruct halts.
          + destruct (HB eq_refl) as (NC & B). apply (nrun_done Max on_data on_disc _ PD PC NC f u d IU LU AU CU).
          + apply (nrun_fine Max on_data on_disc _ PD PC f u d IU LU AU).
        - intros u log o X. unfold can. destruct halts.
          + destruct (HB eq_refl) as (NC & B). pose proof (idle_ext Max _ _ X) as E.
            generalize (NC log s o). generalize (on_disc log s o). intros b N. induction N as [|c k N1 _ IHk]; constructor; auto.
            rewrite E. destruct c; try lia. exfalso. eapply N1. reflexivity.
          + generalize (on_disc log s o). intros b. induction b; constructor; auto. }
      eapply must_bind; [eapply must_bind; [exact CL|]|].
      + intros u _. apply (must_ok halts (fun _ => True)). exact Logic.I.
      + intros [u e] _. apply must_ok. exact Logic.I.
  Qed.

  (** Callbacks that leave lifetimes alone also leave everything open that was open. *)
  Section Lives.
    Hypothesis ND : forall log s o v, no_lives (on_data log s o v).
    Hypothesis NDC : forall log s o, no_lives (on_disc log s o).
    Definition same (w w' : net V) : Prop :=
      ninv w' /\ living (n_log w') = living (n_log w) /\ (forall s, shut (n_log w') s = shut (n_log w) s).
    Lemma same_refl w : ninv w -> same w w.
    Proof. intros H. split; [exact H|]. split; reflexivity. Qed.
    Lemma same_trans a b c : same a b -> same b c -> same a c.
    Proof. intros (A1 & A2 & A3) (B1 & B2 & B3). split; [exact B1|]. split; [congruence|]. intros s. rewrite B3. apply A3. Qed.

    Section Step.
      Variable step : net V -> ncall V -> res (net V * err).
      Hypothesis SS : forall w c w' e, ninv w -> target c <> None -> step w c = Ok (w', e) -> same w w'.
      Lemma body_same b : forall w w', ninv w -> no_lives b -> nrun_body step b w = Ok w' -> same w w'.
      Proof.
        induction b as [|c k IH]; intros w w' I N E; cbn [nrun_body] in E.
        - inversion E; subst. apply same_refl, I.
        - inversion_clear N as [|? ? T K]. destruct (step w c) as [[w1 e]| |] eqn:S1; try discriminate. cbn [bind] in E.
          pose proof (SS w c w1 e I T S1) as G. apply (same_trans _ _ _ G). apply (IH e w1 w' (proj1 G) (K e) E).
      Qed.
      Lemma round_same mk cb s i w w' :
        (forall o, (exists s, mk o = NDisc s o) \/ (exists s v, mk o = NData s o v)) ->
        (forall log o, no_lives (cb log o)) ->
        ninv w -> nround mk cb step s i w = Ok w' -> same w w'.
      Proof.
        intros MK NL I E. unfold nround in E. destruct (at_ w s) as [x| |] eqn:A; try discriminate. cbn [bind] in E.
        apply at_ok in A. destruct (slot (k_slots x) i) as [p| |] eqn:SL; try discriminate. cbn [bind] in E.
        destruct p as [o|]; [|discriminate].
        assert (AD : added (n_log w) o).
        { apply (c_added _ _ _ _ (n_ok _ w I s x A)). unfold slot in SL.
          destruct (nth_error (k_slots x) i) as [p|] eqn:N; inversion SL; subst p. eapply nth_error_In, N. }
        pose proof (ninv_entry Max w (mk o) o I AD (MK o)) as I1.
        eapply same_trans; [|eapply body_same; [exact I1|apply NL|exact E]].
        split; [exact I1|]. cbn [note n_log]. split.
        - rewrite living_snoc. destruct (MK o) as [(z & ->)|(z & v & ->)]; reflexivity.
        - intros z. rewrite shut_snoc. destruct (MK o) as [(y & ->)|(y & v & ->)]; reflexivity.
      Qed.
      Lemma loop_same f : (forall i w w', ninv w -> f i w = Ok w' -> same w w') ->
        forall k i w w', ninv w -> nloop f i k w = Ok w' -> same w w'.
      Proof.
        intros F. induction k as [|k IH]; intros i w w' I E; cbn [nloop] in E.
        - inversion E; subst. apply same_refl, I.
        - destruct (f i w) as [w1| |] eqn:S1; try discriminate. cbn [bind] in E.
          pose proof (F i w w1 I S1) as G. apply (same_trans _ _ _ G). apply (IH (S i) w1 w' (proj1 G) E).
      Qed.
      Lemma clear_same s w w' : ninv w -> nclear on_disc step s w = Ok w' ->
        exists w1, same w w1 /\ n_log w' = n_log w1.
      Proof.
        intros I E. unfold nclear in E. destruct (at_ w s) as [x| |] eqn:A; try discriminate. cbn [bind] in E.
        destruct (nloop _ 0 (k_cnt x) w) as [w1| |] eqn:L; try discriminate. cbn [bind] in E.
        destruct (at_ w1 s) as [x1| |] eqn:A1; try discriminate. cbn [bind] in E. inversion E; subst w'.
        exists w1. split; [|reflexivity].
        eapply loop_same; [|exact I|exact L]. intros i v v' I' R.
        eapply round_same; [| |exact I'|exact R]; [intros o; left; exists s; reflexivity|intros; apply NDC].
      Qed.
    End Step.

    Lemma nrun_same : forall f w c w' e, ninv w -> target c <> None -> nrun f w c = Ok (w', e) -> same w w'.
    Proof.
      induction f as [|f IH]; intros w c w' e I T E; [discriminate|].
      pose proof (nrun_grows Max on_data on_disc (S f) w c w' e I E) as (I' & _).
      cbn [ObsNetModel.nrun] in E. split; [exact I'|].
      destruct c as [s|a s|a s|s|s o|s o|s|s v]; cbn [target] in T; try congruence.
      - destruct (at_ w s) as [x| |]; try discriminate. cbn [bind] in E.
        destruct (add_observer (Max s) (k_slots x) (k_cnt x) o) as [[[b n] r]| |]; try discriminate.
        cbn [bind] in E. inversion E; subst w' r. cbn [note place n_log]. rewrite living_snoc. split; [reflexivity|].
        intros z. rewrite shut_snoc. reflexivity.
      - destruct (at_ w s) as [x| |]; try discriminate. cbn [bind] in E.
        destruct (remove_observer (Max s) (k_slots x) (k_cnt x) o) as [[[b n] r]| |]; try discriminate.
        cbn [bind] in E. inversion E; subst w' r. cbn [note place n_log]. rewrite living_snoc. split; [reflexivity|].
        intros z. rewrite shut_snoc. reflexivity.
      - destruct (nclear on_disc (nrun f) s w) as [w2| |] eqn:C; try discriminate. cbn [bind] in E. inversion E; subst w' e.
        destruct (clear_same (nrun f) IH s w w2 I C) as (w1 & (_ & S2 & S3) & EL). cbn [note n_log]. rewrite EL, living_snoc.
        split; [exact S2|]. intros z. rewrite shut_snoc. apply S3.
      - destruct (at_ w s) as [x| |] eqn:A; try discriminate. cbn [bind] in E. apply at_ok in A.
        pose proof (n_ok _ w I s x A) as CK. pose proof (cok_le _ _ _ _ CK) as LE.
        destruct (Nat.ltb_spec (cap s) (k_cnt x)) as [B|_]; [lia|].
        destruct (k_inside x) eqn:IN.
        + cbn [bind] in E. inversion E; subst w' e. cbn [note n_log]. rewrite living_snoc. split; [reflexivity|].
          intros z. rewrite shut_snoc. reflexivity.
        + set (w0 := note (place w s (Some (Cell (k_slots x) (k_cnt x) true))) (NEnter s v)) in *.
          assert (SH : shut (n_log w) s = false) by (rewrite <- (c_inside _ _ _ _ CK); exact IN).
          assert (I0 : ninv w0).
          { apply ninv_put; try assumption; try reflexivity.
            - rewrite A. discriminate.
            - intros z NZ. rewrite registered_snoc. reflexivity.
            - intros z NZ. rewrite shut_snoc. cbn [shut_step]. apply setm_other, NZ.
            - rewrite living_snoc. reflexivity.
            - destruct CK as [C1 C2 C3 C4 C5 C6]. split; cbn [k_slots k_cnt k_inside];
                rewrite ?registered_snoc, ?shut_snoc; cbn [reg_step shut_step]; rewrite ?setm_same; auto.
              intros z H. apply added_app, C6, H. }
          destruct (nloop _ 0 (k_cnt x) w0) as [w1| |] eqn:L; try discriminate. cbn [bind] in E.
          destruct (at_ w1 s) as [x1| |] eqn:A1; try discriminate. cbn [bind] in E. inversion E; subst w' e.
          assert (G : same w0 w1).
          { eapply loop_same; [|exact I0|exact L]. intros i u u' IU R.
            eapply round_same; [exact IH| | |exact IU|exact R]; [intros z; right; exists s, v; reflexivity|intros; apply ND]. }
          destruct G as (_ & S2 & S3). cbn [note place n_log]. rewrite living_snoc. cbn [live_step]. split.
          * rewrite S2. unfold w0. cbn [note place n_log]. rewrite living_snoc. reflexivity.
          * intros z. rewrite shut_snoc. cbn [shut_step]. destruct (Pos.eq_dec z s) as [->|NZ]; [rewrite setm_same; symmetry; exact SH|].
            rewrite setm_other by exact NZ. rewrite S3. unfold w0. cbn [note place n_log]. rewrite shut_snoc. cbn [shut_step].
            apply setm_other, NZ.
    Qed.

    Definition all_open (w : net V) : Prop := forall s, In s (living (n_log w)) -> shut (n_log w) s = false.
    Lemma call_open f w c w' e : ninv w -> all_open w -> nrun f w c = Ok (w', e) -> all_open w'.
    Proof.
      intros I O E. destruct (target c) eqn:T.
      { destruct (nrun_same f w c w' e I ltac:(congruence) E) as (_ & L & S1). intros s H. rewrite S1. apply O. rewrite <- L. exact H. }
      destruct f as [|f]; [discriminate|]. cbn [ObsNetModel.nrun] in E. destruct c as [s|a s|a s|s|s o|s o|s|s v]; try discriminate T.
      - destruct (n_cell w s); [discriminate|]. cbn [bind] in E. inversion E; subst w' e. intros z. cbn [note place n_log].
        rewrite living_snoc, shut_snoc. cbn [live_step shut_step]. intros H. unfold setm. destruct (Pos.eqb_spec z s); [reflexivity|].
        apply O. destruct H; [congruence|assumption].
      - destruct (at_ w a) as [x| |] eqn:A; try discriminate. cbn [bind] in E. destruct (n_cell w s); [discriminate|].
        destruct (Max a =? Max s); [|discriminate]. cbn [bind] in E. inversion E; subst w' e. intros z. cbn [note place n_log].
        rewrite living_snoc, shut_snoc. cbn [live_step shut_step]. intros H. unfold setm. apply at_ok in A.
        destruct (Pos.eqb_spec z s); [|apply O; destruct H; [congruence|assumption]]. apply O. apply (n_live _ w I). congruence.
      - destruct (at_ w a) as [x| |] eqn:A; try discriminate. cbn [bind] in E. destruct (at_ w s); try discriminate. cbn [bind] in E.
        destruct (Max a =? Max s); [|discriminate]. cbn [bind] in E. inversion E; subst w' e. intros z. cbn [note place n_log].
        rewrite living_snoc, shut_snoc. cbn [live_step shut_step]. intros H. unfold setm. apply at_ok in A.
        destruct (Pos.eqb_spec z s); [|apply O; exact H]. apply O. apply (n_live _ w I). congruence.
      - destruct (nclear on_disc (nrun f) s w) as [w2| |] eqn:C; try discriminate. cbn [bind] in E. inversion E; subst w' e.
        destruct (clear_same (nrun f) (nrun_same f) s w w2 I C) as (w1 & (_ & S2 & S3) & EL). intros z.
        cbn [note place n_log]. rewrite EL, living_snoc, shut_snoc. cbn [live_step shut_step]. rewrite (remove_in Max), S2, S3.
        intros (H & _). apply O, H.
    Qed.
    Lemma reaches_open w : nreaches Max on_data on_disc w -> all_open w.
    Proof.
      intros (f & calls & E).
      assert (G : forall calls v, ninv v -> all_open v -> nrun_all Max on_data on_disc f v calls = Ok w -> all_open w).
      { clear calls E. induction calls as [|c t IH]; intros v I O E; cbn [nrun_all] in E.
        - inversion E; subst. exact O.
        - destruct (nrun f v c) as [[v1 e]| |] eqn:R; try discriminate. cbn [bind] in E.
          apply (IH v1 (proj1 (nrun_grows Max on_data on_disc f v c v1 e I R)) (call_open f v c v1 e I O R) E). }
      exact (G calls nothing (ninv_nothing Max) ltac:(intros s []) E).
    Qed.
  End Lives.

  (** Loops over observers that do nothing. *)
  Lemma silent_loop mk cb step s x l : (forall log o, cb log o = NReturn) ->
    forall pre (w : net V), n_cell w s = Some x -> (exists t, k_slots x = map Some (pre ++ l) ++ t) ->
    nloop (nround mk cb step s) (length pre) (length l) w = Ok (Net (n_cell w) (n_log w ++ map mk l)).
  Proof.
    intros Q. induction l as [|o l IH]; intros pre w A (t & R); cbn [length nloop map].
    - rewrite app_nil_r. destruct w; reflexivity.
    - unfold nround at 1. assert (A' : at_ w s = Ok x) by (apply at_ok, A). rewrite A'. cbn [bind]. unfold slot.
      assert (N : nth_error (k_slots x) (length pre) = Some (Some o)).
      { rewrite R, nth_error_app1 by (rewrite map_length, app_length; cbn; lia). apply map_nth_error.
        rewrite nth_error_app2, Nat.sub_diag by lia. reflexivity. }
      rewrite N. cbn [bind]. rewrite Q. cbn [bind nrun_body]. specialize (IH (pre ++ [o]) (note w (mk o))).
      rewrite app_length in IH. cbn [length] in IH. rewrite Nat.add_1_r in IH. rewrite IH.
      + unfold note. cbn [n_cell n_log]. rewrite <- app_assoc. reflexivity.
      + exact A.
      + exists t. rewrite R, <- app_assoc. reflexivity.
  Qed.
  Lemma silent_notify f w s v : ninv w -> In s (living (n_log w)) -> shut (n_log w) s = false ->
    (forall log o, on_data log s o v = NReturn) ->
    exists w', nrun (S f) w (NNotify s v) = Ok (w', ok) /\
      n_log w' = n_log w ++ NEnter s v :: map (fun o => NData s o v) (registered (n_log w) s) ++ [NRet (NNotify s v) ok].
  Proof.
    intros I L SH Q. destruct (live_cell Max w s I L) as (x & A). pose proof (n_ok _ w I s x A) as CK.
    pose proof (cok_le _ _ _ _ CK) as LE. cbn [ObsNetModel.nrun]. assert (A' : at_ w s = Ok x) by (apply at_ok, A). rewrite A'.
    cbn [bind]. destruct (Nat.ltb_spec (cap s) (k_cnt x)) as [B|_]; [lia|]. rewrite (c_inside _ _ _ _ CK), SH.
    set (w0 := note (place w s (Some (Cell (k_slots x) (k_cnt x) true))) (NEnter s v)).
    assert (A0 : n_cell w0 s = Some (Cell (k_slots x) (k_cnt x) true)).
    { unfold w0, note, place. cbn. rewrite Pos.eqb_refl. reflexivity. }
    rewrite (c_cnt _ _ _ _ CK).
    pose proof (silent_loop (fun o => NData s o v) (fun log o => on_data log s o v) (nrun f) s _ (registered (n_log w) s)
               ltac:(intros; apply Q) [] w0 A0 (c_repr _ _ _ _ CK)) as SL. cbn [length] in SL. rewrite SL. clear SL.
    cbn [bind]. unfold at_. cbn [n_cell]. rewrite A0. cbn [bind]. eexists. split; [reflexivity|].
    unfold w0. cbn [note place n_log]. rewrite <- !app_assoc. reflexivity.
  Qed.
  Lemma silent_destroy f w s : ninv w -> In s (living (n_log w)) ->
    (forall log o, on_disc log s o = NReturn) ->
    exists w', nrun (S f) w (NDestroy s) = Ok (w', ok) /\
      n_log w' = n_log w ++ map (fun o => NDisc s o) (registered (n_log w) s) ++ [NRet (NDestroy s) ok].
  Proof.
    intros I L Q. destruct (live_cell Max w s I L) as (x & A). pose proof (n_ok _ w I s x A) as CK.
    cbn [ObsNetModel.nrun]. unfold nclear. assert (A' : at_ w s = Ok x) by (apply at_ok, A). rewrite A'. cbn [bind].
    rewrite (c_cnt _ _ _ _ CK).
    pose proof (silent_loop (NDisc s) (fun log o => on_disc log s o) (nrun f) s _ (registered (n_log w) s)
               ltac:(intros; apply Q) [] w A (c_repr _ _ _ _ CK)) as SL. cbn [length] in SL. rewrite SL. clear SL.
    cbn [bind]. unfold at_. cbn [n_cell]. rewrite A. cbn [bind]. eexists. split; [reflexivity|].
    cbn [note place n_log]. rewrite <- !app_assoc. reflexivity.
  Qed.
  Lemma refused f w s v : ninv w -> In s (living (n_log w)) -> shut (n_log w) s = true ->
    nrun (S f) w (NNotify s v) = Ok (note w (NRet (NNotify s v) notify_recursion_detected), notify_recursion_detected).
  Proof.
    intros I L SH. destruct (live_cell Max w s I L) as (x & A). pose proof (n_ok _ w I s x A) as CK.
    pose proof (cok_le _ _ _ _ CK) as LE. cbn [ObsNetModel.nrun]. assert (A' : at_ w s = Ok x) by (apply at_ok, A). rewrite A'.
    cbn [bind]. destruct (Nat.ltb_spec (cap s) (k_cnt x)) as [B|_]; [lia|]. rewrite (c_inside _ _ _ _ CK), SH. reflexivity.
  Qed.
  Lemma copy_ok f w a s : ninv w -> In a (living (n_log w)) -> ~ In s (living (n_log w)) -> Max a = Max s ->
    exists w', nrun (S f) w (NCopy a s) = Ok (w', ok) /\ n_log w' = n_log w ++ [NRet (NCopy a s) ok].
  Proof.
    intros I A N M. destruct (live_cell Max w a I A) as (x & E). cbn [ObsNetModel.nrun]. unfold at_. rewrite E. cbn [bind].
    rewrite (dead_cell w s I N), M, Z.eqb_refl. cbn [bind]. eexists. split; reflexivity.
  Qed.
  Lemma assign_ok f w a s : ninv w -> In a (living (n_log w)) -> In s (living (n_log w)) -> Max a = Max s ->
    exists w', nrun (S f) w (NAssign a s) = Ok (w', ok) /\ n_log w' = n_log w ++ [NRet (NAssign a s) ok].
  Proof.
    intros I A N M. destruct (live_cell Max w a I A) as (x & E). destruct (live_cell Max w s I N) as (y & E2).
    cbn [ObsNetModel.nrun]. unfold at_. rewrite E, E2. cbn [bind].
    rewrite M, Z.eqb_refl. cbn [bind]. eexists. split; reflexivity.
  Qed.

  (** A copy of an observable that refuses stays refusing. *)
  Lemma stays_shut (p q : list (nev V)) a s : ngood Max (p ++ NRet (NCopy a s) ok :: q) -> shut p a = true ->
    (forall v, ~ In (NEnter s v) p) ->
    (forall b, ~ In (NRet (NAssign b s) ok) q) -> ~ In (NRet (NDestroy s) ok) q ->
    shut (p ++ NRet (NCopy a s) ok :: q) s = true /\ In s (living (p ++ NRet (NCopy a s) ok :: q)) /\
    (forall v, ~ In (NEnter s v) q) /\ (forall v r, In (NRet (NNotify s v) r) q -> r = notify_recursion_detected).
  Proof.
    induction q as [|e q IH] using rev_ind; intros G SH NP NA ND.
    - rewrite shut_snoc, living_snoc. cbn [shut_step live_step]. rewrite setm_same. repeat split; auto; [left; reflexivity|intros v r []].
    - assert (G' : ngood Max (p ++ NRet (NCopy a s) ok :: q)).
      { intros p' e' q' E. apply (G p' e' (q' ++ [e])). rewrite app_comm_cons, app_assoc, E, <- app_assoc. reflexivity. }
      destruct IH as (S1 & S2 & S3 & S4); auto.
      { intros b H. apply (NA b). apply in_or_app. left. exact H. }
      { intros H. apply ND. apply in_or_app. left. exact H. }
      pose proof (G (p ++ NRet (NCopy a s) ok :: q) e [] ltac:(rewrite <- app_assoc; reflexivity)) as F.
      assert (NA' : forall b, e <> NRet (NAssign b s) ok) by (intros b ->; apply (NA b), in_or_app; right; left; reflexivity).
      assert (ND' : e <> NRet (NDestroy s) ok) by (intros ->; apply ND, in_or_app; right; left; reflexivity).
      rewrite app_comm_cons, app_assoc, shut_snoc, living_snoc. set (log := p ++ NRet (NCopy a s) ok :: q) in *.
      assert (NE : forall v, ~ In (NEnter s v) log).
      { intros v H. unfold log in H. rewrite in_app_iff in H. destruct H as [H|[H|H]]; [exact (NP v H)|discriminate|exact (S3 v H)]. }
      assert (R : forall v r, e = NRet (NNotify s v) r -> r = notify_recursion_detected).
      { intros v r ->. cbn [fits] in F. destruct F as [(_ & F)|(F & _)]; [destruct (NE v F)|exact F]. }
      assert (EN : forall v, e <> NEnter s v) by (intros v ->; cbn [fits] in F; congruence).
      split; [|split; [|split]].
      + destruct e as [z v|z o v|z o|[z|b z|b z|z|z o|z o|z|z v] r]; cbn [shut_step]; auto; cbn [fits] in F.
        * rewrite setm_other; [exact S1|]. intros <-. exact (EN v eq_refl).
        * destruct r; rewrite ?setm_other; auto; intros <-; tauto.
        * destruct r; rewrite ?setm_other; auto; intros <-; tauto.
        * subst r. rewrite setm_other; auto. intros <-. exact (NA' b eq_refl).
        * destruct r; auto. rewrite setm_other; auto. intros <-. discriminate (R v ok eq_refl).
      + destruct e as [z v|z o v|z o|[z|b z|b z|z|z o|z o|z|z v] r]; cbn [live_step]; auto; cbn [fits] in F.
        * right. exact S2.
        * right. exact S2.
        * subst r. apply (remove_in Max). split; [exact S2|]. intros ->. exact (ND' eq_refl).
      + intros v H. apply in_app_or in H. destruct H as [H|[H|[]]]; [exact (S3 v H)|exact (EN v H)].
      + intros v r H. apply in_app_or in H. destruct H as [H|[H|[]]]; [exact (S4 v r H)|exact (R v r H)].
  Qed.
End Client.
