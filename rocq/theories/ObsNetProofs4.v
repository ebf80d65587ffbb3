(** Forwarding reaches everything that can be reached; two ways to break an observable. *)
From Verif Require Export ObsNetProofs3.

Section Flood.
  Context {V : Type}.
  Variable Max : addr -> Z.
  Variable fwd : addr -> option addr.
  Variable on_disc : list (nev V) -> addr -> addr -> nbody V.
  Notation cap s := (max_observers (Max s)).
  Notation nrun := (nrun Max (forwards fwd) on_disc).
  Notation ninv := (@ninv V Max).

  (** Registrations and existing observables do not change below. *)
  Variable m : addr -> list addr.
  Variable LV : list addr.
  Hypothesis ND : NoDup LV.
  Hypothesis TL : forall s o t, In o (m s) -> fwd o = Some t -> In t LV.
  Notation leads := (leads_to fwd m).

  Lemma leads_trans a b c : leads a b -> leads b c -> leads a c.
  Proof. induction 1; intros H2; [exact H2|]. eapply leads_on; eauto. Qed.

  (** Paths through open observables only. *)
  Inductive opn (sh : addr -> bool) : addr -> addr -> Prop :=
  | opn_here s : sh s = false -> opn sh s s
  | opn_on s o t u : sh s = false -> In o (m s) -> fwd o = Some t -> opn sh t u -> opn sh s u.
  Lemma opn_head sh a u : opn sh a u -> sh a = false. Proof. destruct 1; assumption. Qed.
  Lemma opn_leads sh : (forall s, In s LV -> sh s = false) -> forall s u, leads s u -> In s LV -> opn sh s u.
  Proof.
    intros O. induction 1 as [s|s o t u H1 H2 H3 IH]; intros L; [apply opn_here, O, L|].
    eapply opn_on; eauto.
  Qed.
  (** The last visit to [s] on such a path. *)
  Lemma opn_last sh s : forall a u, opn sh a u ->
    opn (setm sh s true) a u \/ u = s \/ exists o t, In o (m s) /\ fwd o = Some t /\ opn (setm sh s true) t u.
  Proof.
    induction 1 as [a F|a o t u F H1 H2 H3 IH].
    - destruct (Pos.eq_dec a s) as [->|N]; [right; left; reflexivity|]. left. apply opn_here. rewrite setm_other by exact N. exact F.
    - destruct IH as [IH|IH]; [|right; exact IH]. destruct (Pos.eq_dec a s) as [->|N].
      + right. right. exists o, t. auto.
      + left. eapply opn_on; eauto. rewrite setm_other by exact N. exact F.
  Qed.

  Definition cnt (sh : addr -> bool) : nat := length (filter (fun s => negb (sh s)) LV).
  Lemma cnt_set sh s : In s LV -> sh s = false -> S (cnt (setm sh s true)) = cnt sh.
  Proof.
    unfold cnt. intros H F. revert H ND. generalize LV as l.
    assert (O : forall l, ~ In s l -> filter (fun a => negb (setm sh s true a)) l = filter (fun a => negb (sh a)) l).
    { induction l as [|a l IH]; intros NI; [reflexivity|]. cbn [filter]. rewrite setm_other by (cbn in NI; intuition congruence).
      rewrite IH by (cbn in NI; tauto). reflexivity. }
    induction l as [|a l IH]; [intros []|].
    intros [->|H] N; inversion_clear N as [|? ? N1 N2]; cbn [filter].
    - rewrite setm_same, F. cbn [negb length]. rewrite O by exact N1. reflexivity.
    - assert (a <> s) by congruence. rewrite setm_other by assumption.
      destruct (sh a); cbn [negb length]; rewrite IH by assumption; reflexivity.
  Qed.

  Record good (w : net V) (sh : addr -> bool) : Prop := {
    g_inv : ninv w;
    g_reg : forall s, registered (n_log w) s = m s;
    g_live : living (n_log w) = LV;
    g_shut : forall s, shut (n_log w) s = sh s
  }.
  Definition sound (t : addr) (v : V) (e : nev V) : Prop :=
    match e with
    | NEnter u x => x = v /\ leads t u
    | NData u o x => x = v /\ In o (m u) /\ leads t u
    | NRet (NNotify u x) _ => x = v /\ leads t u
    | _ => False
    end.
  Definition closed (v : V) (evs : list (nev V)) : Prop :=
    forall u o, In (NEnter u v) evs -> In o (m u) -> In (NData u o v) evs.
  Lemma closed_app v a b : closed v a -> closed v b -> closed v (a ++ b).
  Proof. intros A B u o H M. rewrite in_app_iff in *. destruct H; [left; auto|right; auto]. Qed.
  Lemma sound_up t u v e : leads t u -> sound u v e -> sound t v e.
  Proof.
    intros L. destruct e as [z x|z o x|z o|[]]; cbn; try tauto; intros H; intuition; eapply leads_trans; eauto.
  Qed.

  (** An entry in the log that changes nothing. *)
  Lemma good_ret w sh t v : good w sh -> ninv (note w (NRet (NNotify t v) notify_recursion_detected)) ->
    good (note w (NRet (NNotify t v) notify_recursion_detected)) sh.
  Proof.
    intros [G1 G2 G3 G4] I. split; auto; cbn [note n_log]; intros; rewrite ?registered_snoc, ?living_snoc, ?shut_snoc; cbn; auto.
  Qed.

  Lemma flood : forall f w sh t v, good w sh -> In t LV -> (cnt sh < f)%nat ->
    exists w' evs, nrun f w (NNotify t v) = Ok (w', if sh t then notify_recursion_detected else ok) /\ good w' sh /\
      n_log w' = n_log w ++ evs /\ (forall u, opn sh t u -> In (NEnter u v) evs) /\ closed v evs /\
      (forall e, In e evs -> sound t v e).
  Proof.
    induction f as [|f IH]; intros w sh t v G L F; [lia|].
    destruct G as [G1 G2 G3 G4]. assert (LW : In t (living (n_log w))) by (rewrite G3; exact L).
    destruct (sh t) eqn:ST.
    - rewrite (refused Max (forwards fwd) on_disc f w t v G1 LW ltac:(rewrite G4; exact ST)).
      pose proof (nrun_grows Max (forwards fwd) on_disc (S f) w (NNotify t v) _ _ G1
                    (refused Max (forwards fwd) on_disc f w t v G1 LW ltac:(rewrite G4; exact ST))) as (I' & _).
      eexists _, _. split; [reflexivity|]. split; [apply good_ret; [split; auto|exact I']|]. split; [reflexivity|].
      split; [intros u H; apply opn_head in H; congruence|]. split; [intros u o [H|[]]; discriminate|].
      intros e [<-|[]]. cbn. split; [reflexivity|constructor].
    - destruct (live_cell Max w t G1 LW) as (x & A). pose proof (n_ok _ w G1 t x A) as CK.
      pose proof (cok_le _ _ _ _ CK) as LE.
      assert (RUN : nrun (S f) w (NNotify t v) =
        (w1 <- nloop (nround (fun o => NData t o v) (fun log o => forwards fwd log t o v) (nrun f) t) 0 (length (m t))
                 (note (place w t (Some (Cell (k_slots x) (k_cnt x) true))) (NEnter t v)) ;;
         x1 <- at_ w1 t ;;
         Ok (note (place w1 t (Some (Cell (k_slots x1) (k_cnt x1) false))) (NRet (NNotify t v) ok), ok))).
      { cbn [ObsNetModel.nrun]. assert (A' : at_ w t = Ok x) by (apply at_ok, A). rewrite A'.
        cbn [bind]. destruct (Nat.ltb_spec (cap t) (k_cnt x)) as [B|_]; [lia|]. rewrite (c_inside _ _ _ _ CK), G4, ST.
        rewrite <- G2, <- (c_cnt _ _ _ _ CK). destruct (nloop _ _ _ _) as [w1| |]; cbn [bind]; try reflexivity.
        destruct (at_ w1 t) as [x1| |]; reflexivity. }
      set (w0 := note (place w t (Some (Cell (k_slots x) (k_cnt x) true))) (NEnter t v)) in *.
      set (sh' := setm sh t true).
      assert (G0 : good w0 sh').
      { assert (I0 : ninv w0).
        { apply ninv_put; try assumption; try reflexivity.
          - rewrite A. discriminate.
          - cbn [fits]. rewrite G4. exact ST.
          - intros z NZ. rewrite registered_snoc. reflexivity.
          - intros z NZ. rewrite shut_snoc. cbn [shut_step]. apply setm_other, NZ.
          - rewrite living_snoc. reflexivity.
          - destruct CK as [C1 C2 C3 C4 C5 C6]. split; cbn [k_slots k_cnt k_inside];
              rewrite ?registered_snoc, ?shut_snoc; cbn [reg_step shut_step]; rewrite ?setm_same; auto.
            intros z H. apply added_app, C6, H. }
        split; [exact I0| | |]; unfold w0; cbn [note place n_log].
        - intros s. rewrite registered_snoc. apply G2.
        - rewrite living_snoc. exact G3.
        - intros s. rewrite shut_snoc. cbn [shut_step]. unfold sh', setm. destruct (Pos.eqb s t); auto. }
      assert (F' : (cnt sh' < f)%nat) by (pose proof (cnt_set sh t L ST); unfold sh'; lia).
      (* the rounds *)
      assert (LOOP : forall l pre w1, m t = pre ++ l -> good w1 sh' ->
        exists w2 evs, nloop (nround (fun o => NData t o v) (fun log o => forwards fwd log t o v) (nrun f) t) (length pre) (length l) w1 = Ok w2 /\
          good w2 sh' /\ n_log w2 = n_log w1 ++ evs /\
          (forall o, In o l -> In (NData t o v) evs /\ forall u' u, fwd o = Some u' -> opn sh' u' u -> In (NEnter u v) evs) /\
          closed v evs /\ (forall e, In e evs -> sound t v e)).
      { clear RUN G0 w0. induction l as [|o l IHl]; intros pre w1 E GW.
        - exists w1, []. rewrite app_nil_r. split; [reflexivity|]. split; [exact GW|]. split; [reflexivity|].
          split; [intros o []|]. split; [intros u o []|intros e []].
        - cbn [length nloop]. pose proof (g_inv _ _ GW) as I1.
          assert (LW1 : In t (living (n_log w1))) by (rewrite (g_live _ _ GW); exact L).
          destruct (live_cell Max w1 t I1 LW1) as (x1 & A1). destruct (c_repr _ _ _ _ (n_ok _ w1 I1 t x1 A1)) as (tl & R).
          assert (N : nth_error (k_slots x1) (length pre) = Some (Some o)).
          { rewrite R, (g_reg _ _ GW), E, nth_error_app1 by (rewrite map_length, app_length; cbn; lia). apply map_nth_error.
            rewrite nth_error_app2, Nat.sub_diag by lia. reflexivity. }
          assert (IM : In o (m t)) by (rewrite E; apply in_or_app; right; left; reflexivity).
          assert (GN : good (note w1 (NData t o v)) sh').
          { split; cbn [note n_log].
            - apply (ninv_entry Max w1 (NData t o v) o I1); [|right; exists t, v; reflexivity].
              apply (c_added _ _ _ _ (n_ok _ w1 I1 t x1 A1)). eapply nth_error_In, N.
            - intros s. rewrite registered_snoc. apply (g_reg _ _ GW).
            - rewrite living_snoc. apply (g_live _ _ GW).
            - intros s. rewrite shut_snoc. apply (g_shut _ _ GW). }
          assert (BODY : exists w2 evs, nrun_body (nrun f) (forwards fwd (n_log w1) t o v) (note w1 (NData t o v)) = Ok w2 /\
            good w2 sh' /\ n_log w2 = n_log w1 ++ NData t o v :: evs /\
            (forall u' u, fwd o = Some u' -> opn sh' u' u -> In (NEnter u v) evs) /\ closed v evs /\ (forall e, In e evs -> sound t v e)).
          { change (forwards fwd (n_log w1) t o v)
              with (match fwd o with Some t => NDo (NNotify t v) (fun _ => NReturn) | None => NReturn end).
            destruct (fwd o) as [u'|] eqn:FO; cbn [nrun_body].
            - destruct (IH (note w1 (NData t o v)) sh' u' v GN (TL t o u' IM FO) F') as (w2 & evs & R2 & G2' & L2 & C1 & C2 & C3).
              rewrite R2. cbn [bind]. exists w2, evs. split; [reflexivity|]. split; [exact G2'|]. split.
              { rewrite L2. cbn [note n_log]. rewrite <- app_assoc. reflexivity. }
              split; [intros z u [= <-] H; apply C1, H|]. split; [exact C2|].
              intros e H. eapply sound_up; [|apply C3, H]. eapply leads_on; eauto. constructor.
            - exists (note w1 (NData t o v)), []. split; [reflexivity|]. split; [exact GN|]. split; [reflexivity|].
              split; [intros ? ? [=]|]. split; [intros ? ? []|intros ? []]. }
          destruct BODY as (w2 & ev1 & R2 & GW2 & L2 & C1 & C2 & C3).
          assert (RD : nround (fun o => NData t o v) (fun log o => forwards fwd log t o v) (nrun f) t (length pre) w1 = Ok w2).
          { unfold nround. assert (A1' : at_ w1 t = Ok x1) by (apply at_ok, A1). rewrite A1'. cbn [bind]. unfold slot. rewrite N. exact R2. }
          rewrite RD. cbn [bind].
          destruct (IHl (pre ++ [o]) w2) as (w3 & ev2 & R3 & GW3 & L3 & D1 & D2 & D3); [rewrite <- app_assoc; exact E|exact GW2|].
          rewrite app_length, Nat.add_1_r in R3. rewrite R3. exists w3, (NData t o v :: ev1 ++ ev2).
          split; [reflexivity|]. split; [exact GW3|]. split; [rewrite L3, L2, <- app_assoc; reflexivity|].
          split; [|split].
          + intros z [<-|H].
            * split; [left; reflexivity|]. intros u' u Fz H. right. apply in_or_app. left. eapply C1; eauto.
            * destruct (D1 z H) as (X1 & X2). split; [right; apply in_or_app; right; exact X1|].
              intros u' u Fz Hu. right. apply in_or_app. right. eapply X2; eauto.
          + intros u z H M. right. apply (closed_app v ev1 ev2 C2 D2 u z); [|exact M]. destruct H as [H|H]; [discriminate|exact H].
          + intros e [<-|H].
            * cbn. split; [reflexivity|]. split; [exact IM|constructor].
            * apply in_app_or in H. destruct H; auto. }
      destruct (LOOP (m t) [] w0 eq_refl G0) as (w2 & evs & R2 & GW2 & L2 & C1 & C2 & C3).
      cbn [length] in R2. rewrite R2 in RUN. cbn [bind] in RUN.
      assert (LW2 : In t (living (n_log w2))) by (rewrite (g_live _ _ GW2); exact L).
      destruct (live_cell Max w2 t (g_inv _ _ GW2) LW2) as (x2 & A2). unfold at_ in RUN. rewrite A2 in RUN. cbn [bind] in RUN.
      pose proof (nrun_grows Max (forwards fwd) on_disc (S f) w (NNotify t v) _ _ G1 RUN) as (I' & _).
      rewrite RUN. exists (note (place w2 t (Some (Cell (k_slots x2) (k_cnt x2) false))) (NRet (NNotify t v) ok)),
        (NEnter t v :: evs ++ [NRet (NNotify t v) ok]).
      split; [reflexivity|]. split; [|split; [|split; [|split]]].
      + split; [exact I'| | |]; cbn [note place n_log].
        * intros s. rewrite registered_snoc. apply (g_reg _ _ GW2).
        * rewrite living_snoc. apply (g_live _ _ GW2).
        * intros s. rewrite shut_snoc. cbn [shut_step]. unfold setm. destruct (Pos.eqb_spec s t) as [->|NE]; [symmetry; exact ST|].
          rewrite (g_shut _ _ GW2). unfold sh'. apply setm_other, NE.
      + cbn [note place n_log]. rewrite L2. unfold w0. cbn [note place n_log]. rewrite <- !app_assoc. reflexivity.
      + intros u H. destruct (opn_last sh t t u H) as [X|[->|(o & z & X1 & X2 & X3)]].
        * apply opn_head in X. rewrite setm_same in X. discriminate.
        * left. reflexivity.
        * right. apply in_or_app. left. destruct (C1 o X1) as (_ & Y). eapply Y; eauto.
      + intros u o [H|H] M.
        * inversion H; subst u. right. apply in_or_app. left. apply C1. exact M.
        * right. apply in_app_or in H. destruct H as [H|[H|[]]]; [|discriminate]. apply in_or_app. left. apply (C2 u o H M).
      + intros e [<-|H]; [cbn; split; [reflexivity|constructor]|].
        apply in_app_or in H. destruct H as [H|[<-|[]]]; [apply C3, H|]. cbn. split; [reflexivity|constructor].
  Qed.
End Flood.

Section Broken.
  Context {V : Type}.
  Variable Max : addr -> Z.
  Variable on_data : list (nev V) -> addr -> addr -> V -> nbody V.
  Variable on_disc : list (nev V) -> addr -> addr -> nbody V.
  Notation cap s := (max_observers (Max s)).
  Notation nrun := (nrun Max on_data on_disc).
  Notation ninv := (@ninv V Max).

  (** Up to the first observer's callback. *)
  Lemma first_round f w s v o rest b : ninv w -> In s (living (n_log w)) -> shut (n_log w) s = false ->
    registered (n_log w) s = o :: rest -> (forall log, on_data log s o v = b) ->
    exists x w1, n_cell w s = Some x /\ ninv w1 /\ In s (living (n_log w1)) /\ living (n_log w1) = living (n_log w) /\
      (forall a, a <> s -> n_cell w1 a = n_cell w a) /\
      nrun (S f) w (NNotify s v) =
        (w2 <- nrun_body (nrun f) b w1 ;;
         w3 <- nloop (nround (fun o => NData s o v) (fun log o => on_data log s o v) (nrun f) s) 1 (length rest) w2 ;;
         x3 <- at_ w3 s ;;
         Ok (note (place w3 s (Some (Cell (k_slots x3) (k_cnt x3) false))) (NRet (NNotify s v) ok), ok)).
  Proof.
    intros I L SH RG B. destruct (live_cell Max w s I L) as (x & A). pose proof (n_ok _ w I s x A) as CK.
    pose proof (cok_le _ _ _ _ CK) as LE.
    set (w0 := note (place w s (Some (Cell (k_slots x) (k_cnt x) true))) (NEnter s v)).
    assert (I0 : ninv w0).
    { apply ninv_put; try assumption; try reflexivity.
      - rewrite A. discriminate.
      - intros z NZ. rewrite registered_snoc. reflexivity.
      - intros z NZ. rewrite shut_snoc. cbn [shut_step]. apply setm_other, NZ.
      - rewrite living_snoc. reflexivity.
      - destruct CK as [C1 C2 C3 C4 C5 C6]. split; cbn [k_slots k_cnt k_inside];
          rewrite ?registered_snoc, ?shut_snoc; cbn [reg_step shut_step]; rewrite ?setm_same; auto.
        intros z H. apply added_app, C6, H. }
    assert (A0 : n_cell w0 s = Some (Cell (k_slots x) (k_cnt x) true)).
    { unfold w0, note, place. cbn. rewrite Pos.eqb_refl. reflexivity. }
    destruct (c_repr _ _ _ _ CK) as (t & R). rewrite RG in R. cbn [map app] in R.
    assert (I1 : ninv (note w0 (NData s o v))).
    { apply (ninv_entry Max w0 _ o I0); [|right; exists s, v; reflexivity].
      unfold w0. cbn [note place n_log]. apply added_app, (c_added _ _ _ _ CK). rewrite R. left. reflexivity. }
    assert (LE1 : living (n_log (note w0 (NData s o v))) = living (n_log w)).
    { unfold w0. cbn [note place n_log]. rewrite !living_snoc. reflexivity. }
    exists x, (note w0 (NData s o v)). split; [exact A|]. split; [exact I1|]. split; [rewrite LE1; exact L|]. split; [exact LE1|]. split.
    { intros a N. unfold w0, note, place. cbn. destruct (Pos.eqb_spec a s); congruence. }
    cbn [ObsNetModel.nrun]. assert (A' : at_ w s = Ok x) by (apply at_ok, A). rewrite A'.
    cbn [bind]. destruct (Nat.ltb_spec (cap s) (k_cnt x)) as [BB|_]; [lia|]. rewrite (c_inside _ _ _ _ CK), SH.
    fold w0. rewrite (c_cnt _ _ _ _ CK), RG. cbn [length nloop]. unfold nround at 1.
    assert (A0' : at_ w0 s = Ok (Cell (k_slots x) (k_cnt x) true)) by (apply at_ok, A0).
    rewrite A0'. cbn [bind k_slots]. unfold slot. rewrite R. cbn [nth_error bind]. rewrite B.
    destruct (nrun_body (nrun f) b (note w0 (NData s o v))) as [w2| |]; cbn [bind]; try reflexivity.
    destruct (nloop _ 1 (length rest) w2) as [w3| |]; cbn [bind]; try reflexivity.
    destruct (at_ w3 s); reflexivity.
  Qed.

  Lemma destroy_in_callback f w s v o rest : ninv w -> In s (living (n_log w)) -> shut (n_log w) s = false ->
    registered (n_log w) s = o :: rest -> (forall log, on_data log s o v = NDo (NDestroy s) (fun _ => NReturn)) ->
    (forall log p, on_disc log s p = NReturn) -> nrun (S (S f)) w (NNotify s v) = UB.
  Proof.
    intros I L SH RG B Q. destruct (first_round (S f) w s v o rest _ I L SH RG B) as (x & w1 & A & I1 & L1 & LE & CE & RUN).
    rewrite RUN. clear RUN. destruct (silent_destroy Max on_data on_disc f w1 s I1 L1 Q) as (w2 & R2 & EL).
    pose proof (nrun_grows Max on_data on_disc (S f) w1 _ w2 ok I1 R2) as (I2 & _).
    cbn [nrun_body]. rewrite R2. cbn [bind].
    assert (D : n_cell w2 s = None).
    { apply (dead_cell Max w2 s I2). rewrite EL, app_assoc, living_snoc. cbn [live_step]. rewrite (remove_in Max). tauto. }
    destruct rest as [|p rest]; cbn [length nloop bind].
    - unfold at_. rewrite D. reflexivity.
    - unfold nround at 1. unfold at_ at 1. rewrite D. reflexivity.
  Qed.

  Lemma assign_in_callback f w0 w a s v o p rest : ninv w0 -> nrun 1 w0 (NMake a) = Ok (w, ok) -> a <> s -> Max a = Max s ->
    In s (living (n_log w)) -> shut (n_log w) s = false ->
    registered (n_log w) s = o :: p :: rest -> (forall log, on_data log s o v = NDo (NAssign a s) (fun _ => NReturn)) ->
    nrun (S (S f)) w (NNotify s v) = UB.
  Proof.
    intros I0 MK N M L SH RG B. pose proof (nrun_grows Max on_data on_disc 1 w0 _ w ok I0 MK) as (I & _).
    assert (CA : n_cell w a = Some (Cell (fresh_slots (Max a)) 0 false)).
    { cbn [ObsNetModel.nrun] in MK. destruct (n_cell w0 a); [discriminate|]. cbn [bind] in MK. inversion MK.
      cbn [note place n_cell]. rewrite Pos.eqb_refl. reflexivity. }
    destruct (first_round (S f) w s v o (p :: rest) _ I L SH RG B) as (x & w1 & A & I1 & L1 & LE & CE & RUN).
    rewrite RUN. clear RUN. destruct (live_cell Max w1 s I1 L1) as (y & A1).
    cbn [nrun_body ObsNetModel.nrun]. unfold at_ at 1 2. rewrite (CE a N), CA, A1. cbn [bind]. rewrite M, Z.eqb_refl. cbn [bind].
    cbn [length nloop]. unfold nround at 1. unfold at_ at 1. cbn [note place n_cell]. rewrite Pos.eqb_refl. cbn [bind k_slots].
    pose proof (cok_le _ _ _ _ (n_ok _ w I s x A)) as LE2. rewrite (c_cnt _ _ _ _ (n_ok _ w I s x A)), RG in LE2. cbn [length] in LE2.
    unfold slot, fresh_slots. rewrite <- M in LE2.
    assert (NT : nth_error (repeat (@None addr) (cap a)) 1 = Some None).
    { destruct (cap a) as [|[|k]]; cbn in *; try lia. reflexivity. }
    rewrite M in NT. rewrite NT. reflexivity.
  Qed.
End Broken.
