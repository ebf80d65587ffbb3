(** Proofs about observers that come and go. *)
From Verif Require Export ObsNetProofs4 ObsLifeSpec.

Section Life.
  Context {V : Type}.
  Variable Max : addr -> Z.
  Variable on_data : list (nev V) -> addr -> addr -> V -> nbody V.
  Variable on_disc : list (nev V) -> addr -> addr -> nbody V.
  Notation cap s := (max_observers (Max s)).
  Notation nrun := (nrun Max on_data on_disc).
  Notation lrun := (lrun Max on_data on_disc).
  Notation ninv := (@ninv V Max).

  Lemma exists_in l o : exists_ l o = true <-> In o l.
  Proof.
    unfold exists_. rewrite existsb_exists. split.
    - intros (x & H & E). apply Pos.eqb_eq in E. congruence.
    - intros H. exists o. rewrite Pos.eqb_refl. auto.
  Qed.
  Definition fine_ev (A : list addr) (e : nev V) : Prop := forall o, entered e = Some o -> In o A.
  Lemma sane_forall A evs : sane A evs = true <-> Forall (fine_ev A) evs.
  Proof.
    unfold sane. rewrite forallb_forall, Forall_forall. split; intros H e I; specialize (H e I).
    - intros o E. rewrite E in H. apply exists_in, H.
    - destruct (entered e) as [o|] eqn:E; [|reflexivity]. apply exists_in, H, E.
  Qed.
  Lemma skip_log (l e : list (nev V)) : skipn (length l) (l ++ e) = e.
  Proof. rewrite skipn_app, skipn_all, Nat.sub_diag. reflexivity. Qed.
  Lemma alive_remove l o p : In p (filter (fun q => negb (Pos.eqb q o)) l) <-> In p l /\ p <> o.
  Proof. rewrite filter_In. destruct (Pos.eqb_spec p o); cbn; intuition congruence. Qed.

  (** ** Careful clients *)
  Section Careful.
    Variable A : list addr.
    Definition fullA (x : cell) (n : nat) : Prop :=
      exists l t, k_slots x = map Some l ++ t /\ length l = n /\ Forall (fun o => In o A) l.
    Definition tidy (w : net V) : Prop := forall s x, n_cell w s = Some x -> Forall (fun o => In o A) (registered (n_log w) s).
    Record rel (w w' : net V) : Prop := {
      r_inv : ninv w';
      r_log : exists evs, n_log w' = n_log w ++ evs /\ Forall (fine_ev A) evs;
      r_tidy : tidy w';
      r_full : forall s x n, n_cell w s = Some x -> fullA x n -> exists x', n_cell w' s = Some x' /\ fullA x' n
    }.
    Lemma rel_refl w : ninv w -> tidy w -> rel w w.
    Proof.
      intros I T. split; auto; [exists []; rewrite app_nil_r; auto|]. intros s x n H F. exists x. auto.
    Qed.
    Lemma rel_trans a b c : rel a b -> rel b c -> rel a c.
    Proof.
      intros [A1 (ea & A2 & A2') A3 A4] [B1 (eb & B2 & B2') B3 B4]. split; auto.
      - exists (ea ++ eb). rewrite B2, A2, app_assoc. split; [reflexivity|]. apply Forall_app. auto.
      - intros s x n H F. destruct (A4 s x n H F) as (y & HY & FY). apply (B4 s y n HY FY).
    Qed.
    Lemma fullA_cnt w s x : ninv w -> tidy w -> n_cell w s = Some x -> fullA x (k_cnt x).
    Proof.
      intros I T H. destruct (n_ok _ w I s x H) as [H1 [t H2] H3 _ _ _]. exists (registered (n_log w) s), t.
      split; [exact H2|]. split; [auto|]. exact (T s x H).
    Qed.
    Lemma Forall_skipn {B} (P : B -> Prop) n l : Forall P l -> Forall P (skipn n l).
    Proof. revert n. induction l; intros n H; destruct n; cbn; auto. inversion H; auto. Qed.
    Lemma Forall_firstn {B} (P : B -> Prop) n l : Forall P l -> Forall P (firstn n l).
    Proof. revert n. induction l; intros n H; destruct n; cbn; auto. inversion H; auto. Qed.

    Lemma fullA_add (log : list (nev V)) s x o a k r n : cok Max log s x -> In o A ->
      Forall (fun o => In o A) (registered log s) ->
      add_observer (Max s) (k_slots x) (k_cnt x) o = Ok (a, k, r) -> fullA x n -> fullA (Cell a k (k_inside x)) n.
    Proof.
      intros [H1 [t H2] H3 H4 H5 H6] HA HR E (l0 & t0 & N1 & N2 & N3). set (l := registered log s) in *.
      destruct (add_repr (Max s) l t o) as (t' & E1 & E2 & E3); [rewrite <- H2; exact H1|].
      rewrite H2, H3, E1 in E. inversion E; subst a k r. clear E. unfold fullA. cbn [k_slots].
      set (r := add_answer (cap s) l o) in *.
      destruct r eqn:Er; try (rewrite <- (E3 ltac:(discriminate)), <- H2; exists l0, t0; auto).
      destruct (E2 eq_refl) as [y Ey]. subst t. rewrite H2 in N1.
      destruct (Nat.le_gt_cases n (length l)) as [L|L].
      - exists (firstn n l), (map Some (skipn n l) ++ Some o :: t'). split; [|split].
        + rewrite app_assoc, <- map_app, firstn_skipn, map_app, <- app_assoc. reflexivity.
        + rewrite firstn_length. lia.
        + apply Forall_firstn, HR.
      - exists (l ++ o :: skipn (S (length l)) l0), t0. split; [|split].
        + rewrite !map_app. cbn [map]. rewrite <- !app_assoc. cbn [app]. f_equal. f_equal.
          assert (N4 : skipn (S (length l)) (map Some l ++ y :: t')
                       = skipn (S (length l)) (map Some l0 ++ t0)) by (rewrite N1; reflexivity).
          rewrite !skipn_app, !map_length in N4.
          rewrite (skipn_all2 (map Some l)) in N4 by (rewrite map_length; lia).
          replace (S (length l) - length l)%nat with 1%nat in N4 by lia.
          replace (S (length l) - length l0)%nat with 0%nat in N4 by lia.
          rewrite skipn_map in N4. exact N4.
        + rewrite app_length. cbn [length]. rewrite skipn_length. lia.
        + apply Forall_app. split; [exact HR|]. constructor; [exact HA|]. apply Forall_skipn, N3.
    Qed.
    Lemma fullA_remove (log : list (nev V)) s x o a k r n : cok Max log s x ->
      Forall (fun o => In o A) (registered log s) ->
      remove_observer (Max s) (k_slots x) (k_cnt x) o = Ok (a, k, r) -> fullA x n -> fullA (Cell a k (k_inside x)) n.
    Proof.
      intros C HR E (l0 & t0 & N1 & N2 & N3). pose proof (cok_le _ log s x C) as HLE. destruct C as [H1 [t H2] H3 H4 H5 H6].
      set (l := registered log s) in *. destruct (remove_repr (Max s) l t o) as (g & E1 & E2 & E3); [lia|].
      rewrite H2, H3, E1 in E. inversion E; subst a k r. clear E. unfold fullA. cbn [k_slots].
      assert (LG : length (remove Pos.eq_dec o l ++ g) = length l) by (rewrite app_length; lia).
      assert (FG : Forall (fun o => In o A) (remove Pos.eq_dec o l ++ g)).
      { rewrite Forall_forall in *. intros y Y. apply HR. apply in_app_or in Y. destruct Y as [Y|Y]; [apply in_remove in Y; tauto|apply E3, Y]. }
      destruct (Nat.le_gt_cases n (length l)) as [L|L].
      - set (mm := remove Pos.eq_dec o l ++ g) in *.
        exists (firstn n mm), (map Some (skipn n mm) ++ t). split; [|split].
        + rewrite app_assoc, <- map_app, firstn_skipn. reflexivity.
        + rewrite firstn_length. lia.
        + apply Forall_firstn, FG.
      - exists ((remove Pos.eq_dec o l ++ g) ++ skipn (length l) l0), t0. split; [|split].
        + rewrite (map_app Some (remove Pos.eq_dec o l ++ g)), <- (app_assoc (map Some _)). f_equal.
          assert (N4 : skipn (length l) (map Some l ++ t) = skipn (length l) (map Some l0 ++ t0))
            by (rewrite <- H2, N1; reflexivity).
          rewrite !skipn_app, !map_length in N4.
          rewrite (skipn_all2 (map Some l)) in N4 by (rewrite map_length; lia).
          rewrite Nat.sub_diag in N4. replace (length l - length l0)%nat with 0%nat in N4 by lia.
          rewrite skipn_map in N4. exact N4.
        + rewrite app_length, skipn_length. lia.
        + apply Forall_app. split; [exact FG|]. apply Forall_skipn, N3.
    Qed.

    (** Putting a cell in place of another and logging. *)
    Lemma rel_put w s x y e : ninv (note (place w s (Some y)) e) -> n_cell w s = Some x -> tidy w -> fine_ev A e ->
      (forall a, a <> s -> registered (n_log w ++ [e]) a = registered (n_log w) a) ->
      Forall (fun o => In o A) (registered (n_log w ++ [e]) s) ->
      (forall n, fullA x n -> fullA y n) -> rel w (note (place w s (Some y)) e).
    Proof.
      intros I H T FE RO RS F. split; auto; unfold note, place; cbn [n_log n_cell].
      - eexists. split; [reflexivity|]. constructor; [exact FE|constructor].
      - intros a z Ha. cbn [note place n_log n_cell] in *. destruct (Pos.eqb_spec a s) as [->|N]; [exact RS|]. rewrite RO by exact N. exact (T a z Ha).
      - intros a z n Ha G. destruct (Pos.eqb_spec a s) as [->|N]; [|exists z; auto].
        exists y. split; [reflexivity|]. apply F. congruence.
    Qed.

    Hypothesis TD : forall log s o v, tame A (on_data log s o v).
    Hypothesis TC : forall log s o, tame A (on_disc log s o).

    Section Step.
      Variable step : net V -> ncall V -> res (net V * err).
      Hypothesis SR : forall w c w' e, ninv w -> tidy w -> target c <> None -> (forall s o, c = NAdd s o -> In o A) ->
        step w c = Ok (w', e) -> rel w w'.
      Lemma body_rel b : forall w w', ninv w -> tidy w -> tame A b -> nrun_body step b w = Ok w' -> rel w w'.
      Proof.
        induction b as [|c k IH]; intros w w' I T N E; cbn [nrun_body] in E.
        - inversion E; subst. apply rel_refl; assumption.
        - inversion_clear N as [|? ? T1 T2 K]. destruct (step w c) as [[w1 e]| |] eqn:S1; try discriminate. cbn [bind] in E.
          pose proof (SR w c w1 e I T T1 T2 S1) as G. apply (rel_trans _ _ _ G).
          apply (IH e w1 w' (r_inv _ _ G) (r_tidy _ _ G) (K e) E).
      Qed.
      Lemma round_rel mk cb s n i w w' x :
        (forall o, (exists s, mk o = NDisc s o) \/ (exists s v, mk o = NData s o v)) ->
        (forall log o, tame A (cb log o)) ->
        ninv w -> tidy w -> n_cell w s = Some x -> fullA x n -> (i < n)%nat ->
        nround mk cb step s i w = Ok w' -> rel w w'.
      Proof.
        intros MK TB I T H F L E. unfold nround in E. assert (H' : at_ w s = Ok x) by (apply at_ok, H). rewrite H' in E. cbn [bind] in E.
        destruct F as (l & t & F1 & F2 & F3). destruct (nth_error l i) as [o|] eqn:N; [|apply nth_error_None in N; lia].
        assert (NS : nth_error (k_slots x) i = Some (Some o)).
        { rewrite F1, nth_error_app1 by (rewrite map_length; lia). apply map_nth_error. exact N. }
        unfold slot in E. rewrite NS in E. cbn [bind] in E.
        assert (IO : In o A) by (rewrite Forall_forall in F3; apply F3; eapply nth_error_In; exact N).
        assert (AD : added (n_log w) o) by (apply (c_added _ _ _ _ (n_ok _ w I s x H)); eapply nth_error_In, NS).
        pose proof (ninv_entry Max w (mk o) o I AD (MK o)) as I1.
        assert (R1 : rel w (note w (mk o))).
        { split; auto; unfold note; cbn [n_log n_cell].
          - eexists. split; [reflexivity|]. constructor; [|constructor]. intros p Hp.
            destruct (MK o) as [(z & E1)|(z & v & E1)]; rewrite E1 in Hp; cbn in Hp; congruence.
          - intros a y Ha. cbn [note place n_log n_cell] in *. rewrite registered_snoc. destruct (MK o) as [(z & ->)|(z & v & ->)]; exact (T a y Ha).
          - intros a y m Ha G. exists y. auto. }
        apply (rel_trans _ _ _ R1). eapply body_rel; [exact I1|apply R1|apply TB|exact E].
      Qed.
      Lemma loop_rel mk cb s n :
        (forall o, (exists s, mk o = NDisc s o) \/ (exists s v, mk o = NData s o v)) ->
        (forall log o, tame A (cb log o)) ->
        forall k i w w' x, ninv w -> tidy w -> n_cell w s = Some x -> fullA x n -> (i + k <= n)%nat ->
        nloop (nround mk cb step s) i k w = Ok w' -> rel w w'.
      Proof.
        intros MK TB. induction k as [|k IH]; intros i w w' x I T H F L E; cbn [nloop] in E.
        - inversion E; subst. apply rel_refl; assumption.
        - destruct (nround mk cb step s i w) as [w1| |] eqn:R; try discriminate. cbn [bind] in E.
          pose proof (round_rel mk cb s n i w w1 x MK TB I T H F ltac:(lia) R) as G.
          destruct (r_full _ _ G s x n H F) as (x1 & H1 & F1). apply (rel_trans _ _ _ G).
          apply (IH (S i) w1 w' x1 (r_inv _ _ G) (r_tidy _ _ G) H1 F1 ltac:(lia) E).
      Qed.
      Lemma clear_rel s w w' : ninv w -> tidy w -> nclear on_disc step s w = Ok w' ->
        exists w1 x1, rel w w1 /\ n_cell w1 s = Some x1 /\ w' = place w1 s (Some (Cell (k_slots x1) 0 (k_inside x1))).
      Proof.
        intros I T E. unfold nclear in E. destruct (at_ w s) as [x| |] eqn:H; try discriminate. cbn [bind] in E. apply at_ok in H.
        destruct (nloop _ 0 (k_cnt x) w) as [w1| |] eqn:L; try discriminate. cbn [bind] in E.
        destruct (at_ w1 s) as [x1| |] eqn:H1; try discriminate. cbn [bind] in E. apply at_ok in H1. inversion E; subst w'.
        exists w1, x1. split; [|auto].
        eapply (loop_rel (NDisc s) (fun log o => on_disc log s o) s (k_cnt x)); [| |exact I|exact T|exact H| | |exact L].
        - intros o. left. exists s. reflexivity.
        - intros. apply TC.
        - eapply fullA_cnt; eassumption.
        - lia.
      Qed.
    End Step.

    Lemma note_only w e : ninv w -> tidy w -> ninv (note w e) -> fine_ev A e ->
      (forall a, registered (n_log w ++ [e]) a = registered (n_log w) a) -> rel w (note w e).
    Proof.
      intros I T I' FE R. split; auto; unfold note; cbn [n_log n_cell].
      - eexists. split; [reflexivity|]. constructor; [exact FE|constructor].
      - intros a y Ha. cbn [note place n_log n_cell] in *. rewrite R. exact (T a y Ha).
      - intros a y m Ha G. exists y. auto.
    Qed.
    Lemma fine_ret c r : fine_ev A (NRet c r). Proof. intros o H. discriminate. Qed.
    Lemma forall_remove o l : Forall (fun o => In o A) l -> Forall (fun o => In o A) (remove Pos.eq_dec o l).
    Proof. rewrite !Forall_forall. intros H y Y. apply H. apply in_remove in Y. tauto. Qed.

    Lemma nrun_rel : forall f w c w' e, ninv w -> tidy w -> target c <> None -> (forall s o, c = NAdd s o -> In o A) ->
      nrun f w c = Ok (w', e) -> rel w w'.
    Proof.
      induction f as [|f IH]; intros w c w' e I T TG CA E; [discriminate|].
      pose proof (nrun_grows Max on_data on_disc (S f) w c w' e I E) as (I' & _).
      cbn [ObsNetModel.nrun] in E.
      destruct c as [s|a s|a s|s|s o|s o|s|s v]; cbn [target] in TG; try congruence.
      - destruct (at_ w s) as [x| |] eqn:H; try discriminate. cbn [bind] in E. apply at_ok in H.
        destruct (add_observer (Max s) (k_slots x) (k_cnt x) o) as [[[b n] r]| |] eqn:AD; try discriminate.
        cbn [bind] in E. inversion E; subst w' r. pose proof (CA s o eq_refl) as IO. eapply rel_put; eauto using fine_ret.
        + intros a N. rewrite registered_snoc. destruct e; cbn [reg_step]; try reflexivity. apply setm_other, N.
        + rewrite registered_snoc. pose proof (T s x H) as TS. destruct e; cbn [reg_step]; try exact TS.
          rewrite setm_same. apply Forall_app. split; [exact TS|]. constructor; [exact IO|constructor].
        + intros m. eapply fullA_add; eauto. apply (n_ok _ w I s x H).
      - destruct (at_ w s) as [x| |] eqn:H; try discriminate. cbn [bind] in E. apply at_ok in H.
        destruct (remove_observer (Max s) (k_slots x) (k_cnt x) o) as [[[b n] r]| |] eqn:AD; try discriminate.
        cbn [bind] in E. inversion E; subst w' r. eapply rel_put; eauto using fine_ret.
        + intros a N. rewrite registered_snoc. destruct e; cbn [reg_step]; try reflexivity. apply setm_other, N.
        + rewrite registered_snoc. pose proof (T s x H) as TS. destruct e; cbn [reg_step]; try exact TS.
          rewrite setm_same. apply forall_remove, TS.
        + intros m. eapply fullA_remove; eauto. apply (n_ok _ w I s x H).
      - destruct (nclear on_disc (nrun f) s w) as [w2| |] eqn:C; try discriminate. cbn [bind] in E. inversion E; subst w' e.
        destruct (clear_rel (nrun f) IH s w w2 I T C) as (w1 & x1 & G & H1 & ->). apply (rel_trans _ _ _ G).
        eapply rel_put; eauto using fine_ret, r_tidy.
        + intros a N. rewrite registered_snoc. cbn [reg_step]. apply setm_other, N.
        + rewrite registered_snoc. cbn [reg_step]. rewrite setm_same. constructor.
      - destruct (at_ w s) as [x| |] eqn:H; try discriminate. cbn [bind] in E. apply at_ok in H.
        pose proof (n_ok _ w I s x H) as CK. pose proof (cok_le _ _ _ _ CK) as LE.
        destruct (Nat.ltb_spec (cap s) (k_cnt x)) as [B|_]; [lia|].
        destruct (k_inside x) eqn:IN.
        + cbn [bind] in E. inversion E; subst w' e. apply note_only; auto using fine_ret. intros a. rewrite registered_snoc. reflexivity.
        + set (w0 := note (place w s (Some (Cell (k_slots x) (k_cnt x) true))) (NEnter s v)) in *.
          assert (SH : shut (n_log w) s = false) by (rewrite <- (c_inside _ _ _ _ CK); exact IN).
          assert (I0 : ninv w0).
          { apply ninv_put; try assumption; try reflexivity.
            - rewrite H. discriminate.
            - intros z NZ. rewrite registered_snoc. reflexivity.
            - intros z NZ. rewrite shut_snoc. cbn [shut_step]. apply setm_other, NZ.
            - rewrite living_snoc. reflexivity.
            - destruct CK as [C1 C2 C3 C4 C5 C6]. split; cbn [k_slots k_cnt k_inside];
                rewrite ?registered_snoc, ?shut_snoc; cbn [reg_step shut_step]; rewrite ?setm_same; auto.
              intros z Hz. apply added_app, C6, Hz. }
          assert (G0 : rel w w0).
          { eapply rel_put; eauto.
            - intros z Hz. discriminate.
            - intros z NZ. rewrite registered_snoc. reflexivity.
            - rewrite registered_snoc. exact (T s x H). }
          destruct (nloop _ 0 (k_cnt x) w0) as [w1| |] eqn:L; try discriminate. cbn [bind] in E.
          destruct (at_ w1 s) as [x1| |] eqn:H1; try discriminate. cbn [bind] in E. apply at_ok in H1. inversion E; subst w' e.
          assert (H0 : n_cell w0 s = Some (Cell (k_slots x) (k_cnt x) true)).
          { unfold w0, note, place. cbn. rewrite Pos.eqb_refl. reflexivity. }
          assert (G1 : rel w0 w1).
          { eapply (loop_rel (nrun f) IH (fun o => NData s o v) (fun log o => on_data log s o v) s (k_cnt x));
              [| |exact I0|apply G0|exact H0| | |exact L].
            - intros z. right. exists s, v. reflexivity.
            - intros. apply TD.
            - apply (fullA_cnt w0 s _ I0 (r_tidy _ _ G0) H0).
            - lia. }
          apply (rel_trans _ _ _ G0). apply (rel_trans _ _ _ G1). eapply rel_put; eauto using fine_ret, r_tidy.
          * intros z NZ. rewrite registered_snoc. reflexivity.
          * rewrite registered_snoc. exact (r_tidy _ _ G1 s x1 H1).
    Qed.

    (** A client's call, lifetimes included. *)
    Lemma call_tidy f w c w' e : ninv w -> tidy w -> (forall s o, c = NAdd s o -> In o A) -> nrun f w c = Ok (w', e) ->
      ninv w' /\ tidy w' /\ exists evs, n_log w' = n_log w ++ evs /\ Forall (fine_ev A) evs.
    Proof.
      intros I T CA E. pose proof (nrun_grows Max on_data on_disc f w c w' e I E) as (I' & _). split; [exact I'|].
      destruct (target c) eqn:TG.
      { pose proof (nrun_rel f w c w' e I T ltac:(congruence) CA E) as G. split; apply G. }
      destruct f as [|f]; [discriminate|]. cbn [ObsNetModel.nrun] in E. destruct c as [s|a s|a s|s|s o|s o|s|s v]; try discriminate TG.
      - destruct (n_cell w s); [discriminate|]. cbn [bind] in E. inversion E; subst w' e. split.
        + intros z y Hz. cbn [note place n_log n_cell] in *. rewrite registered_snoc. cbn [reg_step]. unfold setm.
          destruct (Pos.eqb z s); [constructor|exact (T z y Hz)].
        + eexists. split; [reflexivity|]. constructor; [apply fine_ret|constructor].
      - destruct (at_ w a) as [x| |] eqn:H; try discriminate. cbn [bind] in E. destruct (n_cell w s); [discriminate|].
        destruct (Max a =? Max s); [|discriminate]. cbn [bind] in E. inversion E; subst w' e. apply at_ok in H. split.
        + intros z y Hz. cbn [note place n_log n_cell] in *. rewrite registered_snoc. cbn [reg_step]. unfold setm.
          destruct (Pos.eqb z s); [exact (T a x H)|exact (T z y Hz)].
        + eexists. split; [reflexivity|]. constructor; [apply fine_ret|constructor].
      - destruct (at_ w a) as [x| |] eqn:H; try discriminate. cbn [bind] in E. destruct (at_ w s); try discriminate. cbn [bind] in E.
        destruct (Max a =? Max s); [|discriminate]. cbn [bind] in E. inversion E; subst w' e. apply at_ok in H. split.
        + intros z y Hz. cbn [note place n_log n_cell] in *. rewrite registered_snoc. cbn [reg_step]. unfold setm.
          destruct (Pos.eqb z s); [exact (T a x H)|exact (T z y Hz)].
        + eexists. split; [reflexivity|]. constructor; [apply fine_ret|constructor].
      - destruct (nclear on_disc (nrun f) s w) as [w2| |] eqn:C; try discriminate. cbn [bind] in E. inversion E; subst w' e.
        destruct (clear_rel (nrun f) (nrun_rel f) s w w2 I T C) as (w1 & x1 & [G1 (evs & G2 & G2') G3 G4] & H1 & ->). split.
        + intros z y Hz. cbn [note place n_log n_cell] in *. rewrite registered_snoc. cbn [reg_step]. unfold setm.
          destruct (Pos.eqb z s); [constructor|exact (G3 z y Hz)].
        + exists (evs ++ [NRet (NDestroy s) ok]). cbn [note place n_log]. rewrite G2, <- app_assoc. split; [reflexivity|].
          apply Forall_app. split; [exact G2'|]. constructor; [apply fine_ret|constructor].
    Qed.
  End Careful.

  Lemma careful_tidy x : careful Max on_data on_disc x -> ninv (l_net x) /\ tidy (l_alive x) (l_net x).
  Proof.
    induction 1 as [|x o f x' C (I & T) E|x o f x' C (I & T) NR E|x c f x' C (I & T) (CA & TD & TC) E].
    - split; [apply ninv_nothing|]. intros s y H. discriminate.
    - cbn [ObsLifeModel.lrun] in E. destruct (exists_ (l_alive x) o); [discriminate|]. inversion E; subst x'. cbn [l_net l_alive].
      split; [exact I|]. intros s y H. eapply Forall_impl; [|exact (T s y H)]. intros z Hz. right. exact Hz.
    - cbn [ObsLifeModel.lrun] in E. destruct (exists_ (l_alive x) o); [|discriminate]. inversion E; subst x'. cbn [l_net l_alive].
      split; [exact I|]. intros s y H. specialize (T s y H). rewrite Forall_forall in *. intros z Hz. apply alive_remove. split; [apply T, Hz|].
      intros ->. apply (NR s); [|exact Hz]. apply (n_live _ _ I). congruence.
    - cbn [ObsLifeModel.lrun] in E. destruct (nrun f (l_net x) c) as [[w e]| |] eqn:R; try discriminate. cbn [bind] in E.
      destruct (sane _ _); [|discriminate]. inversion E; subst x'. cbn [l_net l_alive].
      destruct (call_tidy (l_alive x) TD TC f (l_net x) c w e I T CA R) as (I' & T' & _). auto.
  Qed.
  Lemma careful_safe x c f w e : careful Max on_data on_disc x -> careful_call on_data on_disc x c ->
    nrun f (l_net x) c = Ok (w, e) -> lrun f x (LCall c) = Ok (Life w (l_alive x)).
  Proof.
    intros C (CA & TD & TC) R. destruct (careful_tidy x C) as (I & T). cbn [ObsLifeModel.lrun]. rewrite R. cbn [bind].
    destruct (call_tidy (l_alive x) TD TC f (l_net x) c w e I T CA R) as (_ & _ & evs & EL & F).
    rewrite EL, skip_log. apply sane_forall in F. rewrite F. reflexivity.
  Qed.

  (** ** Exactly when a call is undefined, with observers that do nothing *)
  Lemma lreach_ninv x : lreaches Max on_data on_disc x -> ninv (l_net x).
  Proof.
    intros (f & steps & E).
    assert (G : forall steps y, ninv (l_net y) -> lrun_all Max on_data on_disc f y steps = Ok x -> ninv (l_net x)).
    { clear steps E. induction steps as [|st steps IH]; intros y I E; cbn [lrun_all] in E.
      - inversion E; subst. exact I.
      - destruct (lrun f y st) as [y1| |] eqn:R; try discriminate. cbn [bind] in E. apply (IH y1); [|exact E].
        destruct st as [o|o|c]; cbn [ObsLifeModel.lrun] in R.
        + destruct (exists_ _ _); [discriminate|]. inversion R. exact I.
        + destruct (exists_ _ _); [|discriminate]. inversion R. exact I.
        + destruct (nrun f (l_net y) c) as [[w e]| |] eqn:RN; try discriminate. cbn [bind] in R.
          destruct (sane _ _); [|discriminate]. inversion R. exact (proj1 (nrun_grows Max on_data on_disc f _ c w e I RN)). }
    apply (G steps (Life nothing [])); [apply ninv_nothing|exact E].
  Qed.

  Section Silent.
    Hypothesis QD : forall log s o v, on_data log s o v = NReturn.
    Hypothesis QC : forall log s o, on_disc log s o = NReturn.

    Lemma silent_clear f w s : ninv w -> In s (living (n_log w)) ->
      exists w', nrun (S f) w (NClear s) = Ok (w', ok) /\
        n_log w' = n_log w ++ map (fun o => NDisc s o) (registered (n_log w) s) ++ [NRet (NClear s) ok].
    Proof.
      intros I L. destruct (live_cell Max w s I L) as (x & H). pose proof (n_ok _ w I s x H) as CK.
      cbn [ObsNetModel.nrun]. unfold nclear. assert (H' : at_ w s = Ok x) by (apply at_ok, H). rewrite H'. cbn [bind].
      rewrite (c_cnt _ _ _ _ CK).
      pose proof (silent_loop Max on_data on_disc (NDisc s) (fun log o => on_disc log s o) (nrun f) s _ (registered (n_log w) s)
                 ltac:(intros; apply QC) [] w H (c_repr _ _ _ _ CK)) as SL. cbn [length] in SL. rewrite SL. clear SL.
      cbn [bind]. unfold at_. cbn [n_cell]. rewrite H. cbn [bind]. eexists. split; [reflexivity|].
      cbn [note place n_log]. rewrite <- !app_assoc. reflexivity.
    Qed.

    (** What a proper call logs. *)
    Lemma silent_call f w c : ninv w -> proper Max (living (n_log w)) c ->
      exists w' e evs, nrun (S f) w c = Ok (w', e) /\ n_log w' = n_log w ++ evs /\
        forall o, (exists ev, In ev evs /\ entered ev = Some o) <-> exists s, enters_all (n_log w) c s /\ In o (registered (n_log w) s).
    Proof.
      intros I P.
      assert (ONE : forall e, (forall s, ~ enters_all (n_log w) c s) ->
        forall o, (exists ev, In ev [NRet c e] /\ entered ev = Some o) <-> exists s, enters_all (n_log w) c s /\ In o (registered (n_log w) s)).
      { intros e N o. split; [intros (ev & [<-|[]] & H); discriminate|]. intros (s & H & _). destruct (N s H). }
      destruct c as [s|a s|a s|s|s o|s o|s|s v]; cbn [proper] in P.
      - cbn [ObsNetModel.nrun]. rewrite (dead_cell Max w s I P). cbn [bind]. eexists _, _, _. split; [reflexivity|]. split; [reflexivity|].
        apply ONE. intros z [H|[H|((v & H) & _)]]; discriminate.
      - destruct P as (P1 & P2 & P3). destruct (copy_ok Max on_data on_disc f w a s I P1 P2 P3) as (w' & R & L).
        eexists _, _, _. split; [exact R|]. split; [exact L|]. apply ONE. intros z [H|[H|((v & H) & _)]]; discriminate.
      - destruct P as (P1 & P2 & P3). destruct (assign_ok Max on_data on_disc f w a s I P1 P2 P3) as (w' & R & L).
        eexists _, _, _. split; [exact R|]. split; [exact L|]. apply ONE. intros z [H|[H|((v & H) & _)]]; discriminate.
      - destruct (silent_destroy Max on_data on_disc f w s I P (fun l o => QC l s o)) as (w' & R & L).
        eexists _, _, _. split; [exact R|]. split; [exact L|]. intros o. split.
        + intros (ev & H & E). apply in_app_or in H. destruct H as [H|[<-|[]]]; [|discriminate].
          apply in_map_iff in H. destruct H as (p & <- & H). inversion E; subst p. exists s. split; [right; left; reflexivity|exact H].
        + intros (z & [H|[H|((v & H) & _)]] & H2); inversion H; subst z. exists (NDisc s o). split; [|reflexivity].
          apply in_or_app. left. apply (in_map (fun o => NDisc s o)). exact H2.
      - destruct (live_cell Max w s I P) as (x & H). pose proof (n_ok _ w I s x H) as CK. cbn [ObsNetModel.nrun].
        assert (H' : at_ w s = Ok x) by (apply at_ok, H). rewrite H'. cbn [bind]. destruct CK as [H1 [t H2] H3 _ _ _].
        destruct (add_repr (Max s) (registered (n_log w) s) t o) as (t2 & E1 & _); [rewrite <- H2; exact H1|]. rewrite H2, H3, E1. cbn [bind].
        eexists _, _, _. split; [reflexivity|]. split; [reflexivity|]. apply ONE. intros z [Q|[Q|((v & Q) & _)]]; discriminate.
      - destruct (live_cell Max w s I P) as (x & H). pose proof (n_ok _ w I s x H) as CK. cbn [ObsNetModel.nrun].
        assert (H' : at_ w s = Ok x) by (apply at_ok, H). rewrite H'. cbn [bind]. pose proof (cok_le _ _ _ _ CK) as LE. destruct CK as [H1 [t H2] H3 _ _ _].
        destruct (remove_repr (Max s) (registered (n_log w) s) t o) as (t2 & E1 & _); [lia|]. rewrite H2, H3, E1. cbn [bind].
        eexists _, _, _. split; [reflexivity|]. split; [reflexivity|]. apply ONE. intros z [Q|[Q|((v & Q) & _)]]; discriminate.
      - destruct (silent_clear f w s I P) as (w' & R & L).
        eexists _, _, _. split; [exact R|]. split; [exact L|]. intros o. split.
        + intros (ev & H & E). apply in_app_or in H. destruct H as [H|[<-|[]]]; [|discriminate].
          apply in_map_iff in H. destruct H as (p & <- & H). inversion E; subst p. exists s. split; [left; reflexivity|exact H].
        + intros (z & [H|[H|((v & H) & _)]] & H2); inversion H; subst z. exists (NDisc s o). split; [|reflexivity].
          apply in_or_app. left. apply (in_map (fun o => NDisc s o)). exact H2.
      - destruct (shut (n_log w) s) eqn:SH.
        + rewrite (refused Max on_data on_disc f w s v I P SH). eexists _, _, _. split; [reflexivity|]. split; [reflexivity|].
          apply ONE. intros z [H|[H|((u & H) & H2)]]; try discriminate. inversion H; subst z. congruence.
        + destruct (silent_notify Max on_data on_disc f w s v I P SH (fun l o => QD l s o v)) as (w' & R & L).
          eexists _, _, _. split; [exact R|]. split; [exact L|]. intros o. split.
          * intros (ev & [<-|H] & E); [discriminate|]. apply in_app_or in H. destruct H as [H|[<-|[]]]; [|discriminate].
            apply in_map_iff in H. destruct H as (p & <- & H). inversion E; subst p. exists s.
            split; [right; right; split; [exists v; reflexivity|exact SH]|exact H].
          * intros (z & [H|[H|((u & H) & _)]] & H2); inversion H; subst z u. exists (NData s o v). split; [|reflexivity].
            apply in_cons. apply in_or_app. left. apply in_map_iff. exists o. split; [reflexivity|exact H2].
    Qed.

    Lemma silent_exact f x c : ninv (l_net x) -> proper Max (living (n_log (l_net x))) c ->
      (lrun (S f) x (LCall c) = UB <->
         exists s o, enters_all (n_log (l_net x)) c s /\ In o (registered (n_log (l_net x)) s) /\ ~ In o (l_alive x)) /\
      lrun (S f) x (LCall c) <> Fuel.
    Proof.
      intros I P. destruct (silent_call f (l_net x) c I P) as (w' & e & evs & R & L & EX).
      cbn [ObsLifeModel.lrun]. rewrite R. cbn [bind]. rewrite L, skip_log.
      destruct (sane (l_alive x) evs) eqn:SN; (split; [|discriminate]).
      - split; [discriminate|]. intros (s & o & H1 & H2 & H3). exfalso. apply H3. apply sane_forall in SN. rewrite Forall_forall in SN.
        destruct (proj2 (EX o)) as (ev & E1 & E2); [exists s; auto|]. exact (SN ev E1 o E2).
      - split; [intros _|reflexivity]. unfold sane in SN. assert (B : exists ev, In ev evs /\ exists o, entered ev = Some o /\ ~ In o (l_alive x)).
        { clear - SN. induction evs as [|ev evs IH]; [discriminate|]. cbn in SN. apply andb_false_iff in SN. destruct SN as [SN|SN].
          - exists ev. split; [left; reflexivity|]. destruct (entered ev) as [o|]; [|discriminate]. exists o. split; [reflexivity|].
            rewrite <- exists_in. congruence.
          - destruct (IH SN) as (e1 & H1 & H2). exists e1. split; [right; exact H1|exact H2]. }
        destruct B as (ev & E1 & o & E2 & E3). destruct (proj1 (EX o)) as (s & S1 & S2); [exists ev; auto|]. exists s, o. auto.
    Qed.
  End Silent.
  (** ** Scopes *)
  Lemma births f obs : forall x, NoDup obs -> (forall o, In o obs -> ~ In o (l_alive x)) ->
    lrun_all Max on_data on_disc f x (map LBorn obs) = Ok (Life (l_net x) (rev obs ++ l_alive x)).
  Proof.
    induction obs as [|o obs IH]; intros x ND NA; cbn [map lrun_all rev app].
    - destruct x; reflexivity.
    - inversion_clear ND as [|? ? N1 N2]. cbn [ObsLifeModel.lrun].
      destruct (exists_ (l_alive x) o) eqn:E; [apply exists_in in E; destruct (NA o (or_introl eq_refl) E)|].
      cbn [bind]. rewrite IH; [cbn [l_net l_alive]; rewrite <- app_assoc; reflexivity|exact N2|].
      cbn [l_alive]. intros p Hp [<-|Hq]; [exact (N1 Hp)|exact (NA p (or_intror Hp) Hq)].
  Qed.
  Lemma ends f obs : forall x, NoDup obs -> (forall o, In o obs -> In o (l_alive x)) ->
    exists al, lrun_all Max on_data on_disc f x (map LEnd obs) = Ok (Life (l_net x) al) /\
      (forall o, In o al <-> In o (l_alive x) /\ ~ In o obs).
  Proof.
    induction obs as [|o obs IH]; intros x ND NA; cbn [map lrun_all].
    - exists (l_alive x). split; [destruct x; reflexivity|]. cbn. tauto.
    - inversion_clear ND as [|? ? N1 N2]. cbn [ObsLifeModel.lrun].
      assert (E : exists_ (l_alive x) o = true) by (apply exists_in, NA; left; reflexivity). rewrite E. cbn [bind].
      destruct (IH (Life (l_net x) (filter (fun p => negb (Pos.eqb p o)) (l_alive x))) N2) as (al & R & A).
      + cbn [l_alive]. intros p Hp. apply alive_remove. split; [apply NA; right; exact Hp|congruence].
      + exists al. split; [exact R|]. intros p. rewrite A. cbn [l_alive In]. rewrite alive_remove. intuition congruence.
  Qed.
  Lemma add_call f x s o : ninv (l_net x) -> In s (living (n_log (l_net x))) -> ~ In o (registered (n_log (l_net x)) s) ->
    (length (registered (n_log (l_net x)) s) < cap s)%nat ->
    exists w, lrun (S f) x (LCall (NAdd s o)) = Ok (Life w (l_alive x)) /\ ninv w /\ n_log w = n_log (l_net x) ++ [NRet (NAdd s o) ok].
  Proof.
    intros I P N C. destruct x as [w al]. cbn [l_net l_alive] in *. destruct (live_cell Max w s I P) as (x & H). pose proof (n_ok _ w I s x H) as CK.
    destruct CK as [H1 [t H2] H3 _ _ _].
    destruct (add_repr (Max s) (registered (n_log w) s) t o) as (t2 & E1 & _); [rewrite <- H2; exact H1|].
    assert (AN : add_answer (cap s) (registered (n_log w) s) o = ok).
    { unfold add_answer. destruct (Nat.leb_spec (cap s) (length (registered (n_log w) s))); [lia|].
      destruct (in_dec Pos.eq_dec o (registered (n_log w) s)); [contradiction|reflexivity]. }
    assert (R : exists w', nrun (S f) w (NAdd s o) = Ok (w', ok) /\ n_log w' = n_log w ++ [NRet (NAdd s o) ok]).
    { cbn [ObsNetModel.nrun]. assert (H' : at_ w s = Ok x) by (apply at_ok, H). rewrite H'. cbn [bind]. rewrite H2, H3, E1, AN. cbn [bind].
      eexists. split; reflexivity. }
    destruct R as (w' & R & L). exists w'. split; [|split; [exact (proj1 (nrun_grows Max on_data on_disc _ _ _ _ _ I R))|exact L]].
    cbn [ObsLifeModel.lrun l_net l_alive]. rewrite R. cbn [bind]. rewrite L, skip_log. reflexivity.
  Qed.
  Lemma adds f s obs : forall x, ninv (l_net x) -> In s (living (n_log (l_net x))) -> NoDup obs ->
    (forall o, In o obs -> ~ In o (registered (n_log (l_net x)) s)) ->
    (length (registered (n_log (l_net x)) s) + length obs <= cap s)%nat ->
    exists w, lrun_all Max on_data on_disc (S f) x (map (fun o => LCall (NAdd s o)) obs) = Ok (Life w (l_alive x)) /\ ninv w /\
      n_log w = n_log (l_net x) ++ map (fun o => NRet (NAdd s o) ok) obs /\
      In s (living (n_log w)) /\ registered (n_log w) s = registered (n_log (l_net x)) s ++ obs /\ shut (n_log w) s = shut (n_log (l_net x)) s.
  Proof.
    induction obs as [|o obs IH]; intros x I L ND NR C; cbn [map lrun_all].
    - exists (l_net x). rewrite !app_nil_r. destruct x as [w0 al0]. cbn [l_net l_alive] in *. auto 6.
    - inversion_clear ND as [|? ? N1 N2]. cbn [length] in C.
      destruct (add_call f x s o I L (NR o (or_introl eq_refl)) ltac:(lia)) as (w & R & I1 & L1). rewrite R. cbn [bind].
      assert (RG : registered (n_log w) s = registered (n_log (l_net x)) s ++ [o]) by (rewrite L1, registered_snoc; cbn [reg_step]; rewrite setm_same; reflexivity).
      assert (SH : shut (n_log w) s = shut (n_log (l_net x)) s) by (rewrite L1, shut_snoc; reflexivity).
      assert (LV : In s (living (n_log w))) by (rewrite L1, living_snoc; exact L).
      destruct (IH (Life w (l_alive x))) as (w2 & R2 & I2 & L2 & LV2 & RG2 & SH2); cbn [l_net l_alive] in *; auto.
      + intros p Hp Hq. rewrite RG in Hq. apply in_app_or in Hq. destruct Hq as [Hq|[<-|[]]]; [exact (NR p (or_intror Hp) Hq)|exact (N1 Hp)].
      + rewrite RG, app_length. cbn [length]. lia.
      + exists w2. split; [exact R2|]. split; [exact I2|]. split; [rewrite L2, L1, <- app_assoc; reflexivity|]. split; [exact LV2|].
        split; [rewrite RG2, RG, <- app_assoc; reflexivity|congruence].
  Qed.
  Lemma make_call f x s : ninv (l_net x) -> ~ In s (living (n_log (l_net x))) ->
    exists w, lrun (S f) x (LCall (NMake s)) = Ok (Life w (l_alive x)) /\ ninv w /\ n_log w = n_log (l_net x) ++ [NRet (NMake s) ok].
  Proof.
    intros I N. destruct x as [w al]. cbn [l_net l_alive] in *.
    assert (R : exists w', nrun (S f) w (NMake s) = Ok (w', ok) /\ n_log w' = n_log w ++ [NRet (NMake s) ok]).
    { cbn [ObsNetModel.nrun]. rewrite (dead_cell Max w s I N). cbn [bind]. eexists. split; reflexivity. }
    destruct R as (w' & R & L). exists w'. split; [|split; [exact (proj1 (nrun_grows Max on_data on_disc _ _ _ _ _ I R))|exact L]].
    cbn [ObsLifeModel.lrun l_net l_alive]. rewrite R. cbn [bind]. rewrite L, skip_log. reflexivity.
  Qed.
  Lemma lrun_all_app f l1 l2 : forall x, lrun_all Max on_data on_disc f x (l1 ++ l2) =
    (y <- lrun_all Max on_data on_disc f x l1 ;; lrun_all Max on_data on_disc f y l2).
  Proof.
    induction l1 as [|a l1 IH]; intros x; cbn [app lrun_all bind]; [reflexivity|].
    destruct (lrun f x a); cbn [bind]; [apply IH|reflexivity|reflexivity].
  Qed.

  (** Destroying an observable calls the first registered observer at once, whatever follows. *)
  Lemma destroy_dead f x s o rest : ninv (l_net x) -> In s (living (n_log (l_net x))) ->
    registered (n_log (l_net x)) s = o :: rest -> ~ In o (l_alive x) -> forall y, lrun f x (LCall (NDestroy s)) <> Ok y.
  Proof.
    intros I L RG NA y E. destruct x as [w al]. cbn [l_net l_alive] in *. cbn [ObsLifeModel.lrun l_net l_alive] in E.
    destruct (nrun f w (NDestroy s)) as [[w' e]| |] eqn:R; try discriminate. cbn [bind] in E.
    destruct (sane al _) eqn:SN; [|discriminate]. clear E.
    destruct f as [|f]; [discriminate|]. cbn [ObsNetModel.nrun] in R. unfold nclear in R.
    destruct (live_cell Max w s I L) as (x & H). pose proof (n_ok _ w I s x H) as CK.
    assert (H' : at_ w s = Ok x) by (apply at_ok, H). rewrite H' in R. cbn [bind] in R.
    destruct (c_repr _ _ _ _ CK) as (t & RP). rewrite (c_cnt _ _ _ _ CK), RG in R. cbn [length nloop] in R.
    unfold nround at 1 in R. rewrite H' in R. cbn [bind] in R. rewrite RG in RP. cbn [map app] in RP. rewrite RP in R. cbn [slot nth_error bind] in R.
    assert (AD : added (n_log w) o).
    { apply (c_added _ _ _ _ CK). rewrite RP. left. reflexivity. }
    assert (I1 : ninv (note w (NDisc s o))) by (apply (ninv_entry Max w (NDisc s o) o I AD); left; exists s; reflexivity).
    destruct (nrun_body (nrun f) (on_disc (n_log w) s o) (note w (NDisc s o))) as [w1| |] eqn:B; try discriminate. cbn [bind] in R.
    destruct (nloop _ 1 (length rest) w1) as [w2| |] eqn:LO; try discriminate. cbn [bind] in R.
    destruct (at_ w2 s) as [x2| |]; try discriminate. cbn [bind] in R. inversion R; subst w' e. clear R.
    assert (SG : forall w c w' e, ninv w -> nrun f w c = Ok (w', e) -> grows Max w w').
    { intros v d v' g IV EV. destruct (nrun_grows Max on_data on_disc f v d v' g IV EV) as (A1 & evs & A2). split; [exact A1|]. eexists. exact A2. }
    destruct (body_grows Max (nrun f) SG _ _ _ I1 B) as (I2 & ev & EL).
    assert (GB : n_log w1 = n_log w ++ NDisc s o :: ev) by (rewrite EL; cbn [note n_log]; rewrite <- app_assoc; reflexivity).
    pose proof (loop_grows Max _ (fun i w w' => round_grows Max (nrun f) SG (NDisc s) (fun log o => on_disc log s o) s i w w'
                  ltac:(intros p; left; exists s; reflexivity)) _ _ _ _ I2 LO) as (_ & ev2 & EL2).
    cbn [note place n_log] in SN. rewrite EL2, GB in SN. rewrite <- !app_assoc in SN. rewrite skip_log in SN.
    apply sane_forall in SN. rewrite Forall_forall in SN. apply NA. apply (SN (NDisc s o)); [left|]; reflexivity.
  Qed.

  (** The two scopes. *)
  Lemma first_scope f x s obs : ninv (l_net x) -> ~ In s (living (n_log (l_net x))) -> NoDup obs -> obs <> [] ->
    (forall o, In o obs -> ~ In o (l_alive x)) -> (length obs <= cap s)%nat ->
    exists y, lrun_all Max on_data on_disc (S f) x (LCall (NMake s) :: map LBorn obs ++ map (fun o => LCall (NAdd s o)) obs ++ map LEnd (rev obs)) = Ok y /\
      ninv (l_net y) /\ In s (living (n_log (l_net y))) /\ registered (n_log (l_net y)) s = obs /\ (forall o, In o obs -> ~ In o (l_alive y)).
  Proof.
    intros I NL ND NE NA C. cbn [lrun_all]. destruct (make_call f x s I NL) as (w & R & I1 & L1). rewrite R. cbn [bind].
    rewrite lrun_all_app, births; [|exact ND|exact NA]. cbn [bind l_net l_alive]. rewrite lrun_all_app.
    assert (RG : registered (n_log w) s = []) by (rewrite L1, registered_snoc; cbn [reg_step]; apply setm_same).
    destruct (adds f s obs (Life w (rev obs ++ l_alive x))) as (w2 & R2 & I2 & L2 & LV2 & RG2 & _); cbn [l_net l_alive]; auto.
    { rewrite L1, living_snoc. cbn [live_step]. left. reflexivity. }
    { rewrite RG. intros o _ []. }
    { rewrite RG. exact C. }
    rewrite R2. cbn [bind l_net l_alive] in *. rewrite RG in RG2. cbn [app] in RG2.
    destruct (ends (S f) (rev obs) (Life w2 (rev obs ++ l_alive x))) as (al & R3 & A3).
    { apply NoDup_rev, ND. }
    { intros o H. cbn [l_alive]. apply in_or_app. left. exact H. }
    rewrite R3. eexists. split; [reflexivity|]. cbn [l_net l_alive]. split; [exact I2|]. split; [exact LV2|]. split; [exact RG2|].
    intros o H H2. apply A3 in H2. destruct H2 as (_ & H2). apply H2. apply in_rev. rewrite rev_involutive. exact H.
  Qed.
  Lemma observable_first_never f x s obs : ninv (l_net x) -> ~ In s (living (n_log (l_net x))) -> NoDup obs -> obs <> [] ->
    (forall o, In o obs -> ~ In o (l_alive x)) -> (length obs <= cap s)%nat ->
    forall y, lrun_all Max on_data on_disc f x (observable_first s obs) <> Ok y.
  Proof.
    intros I NL ND NE NA C y. destruct f as [|f]; [discriminate|].
    destruct (first_scope f x s obs I NL ND NE NA C) as (z & R & IZ & LZ & RZ & AZ).
    unfold observable_first. rewrite !app_assoc, app_comm_cons, lrun_all_app, <- !app_assoc, R. cbn [bind lrun_all].
    destruct obs as [|o obs]; [congruence|].
    pose proof (destroy_dead (S f) z s o obs IZ LZ RZ (AZ o (or_introl eq_refl))) as D.
    destruct (lrun (S f) z (LCall (NDestroy s))) as [u| |]; [destruct (D u eq_refl)|discriminate|discriminate].
  Qed.

  Section SilentScope.
    Hypothesis QD : forall log s o v, on_data log s o v = NReturn.
    Hypothesis QC : forall log s o, on_disc log s o = NReturn.
    Lemma observable_first_ub f x s obs : ninv (l_net x) -> ~ In s (living (n_log (l_net x))) -> NoDup obs -> obs <> [] ->
      (forall o, In o obs -> ~ In o (l_alive x)) -> (length obs <= cap s)%nat ->
      lrun_all Max on_data on_disc (S f) x (observable_first s obs) = UB.
    Proof.
      intros I NL ND NE NA C. destruct (first_scope f x s obs I NL ND NE NA C) as (z & R & IZ & LZ & RZ & AZ).
      unfold observable_first. rewrite !app_assoc, app_comm_cons, lrun_all_app, <- !app_assoc, R. cbn [bind lrun_all].
      destruct obs as [|o obs]; [congruence|].
      assert (U : lrun (S f) z (LCall (NDestroy s)) = UB).
      { apply (silent_exact QD QC f z (NDestroy s) IZ LZ). exists s, o. split; [right; left; reflexivity|]. rewrite RZ.
        split; [left; reflexivity|]. apply AZ. left. reflexivity. }
      rewrite U. reflexivity.
    Qed.
    Lemma observers_first_ok f x s obs : ninv (l_net x) -> ~ In s (living (n_log (l_net x))) -> NoDup obs ->
      (forall o, In o obs -> ~ In o (l_alive x)) -> (length obs <= cap s)%nat ->
      exists y, lrun_all Max on_data on_disc (S f) x (observers_first s obs) = Ok y /\
        (forall o, In o (l_alive y) <-> In o (l_alive x)) /\
        n_log (l_net y) = n_log (l_net x) ++ NRet (NMake s) ok :: map (fun o => NRet (NAdd s o) ok) obs ++
          map (fun o => NDisc s o) obs ++ [NRet (NDestroy s) ok].
    Proof.
      intros I NL ND NA C. unfold observers_first. rewrite lrun_all_app, births; [|exact ND|exact NA]. cbn [bind lrun_all].
      destruct (make_call f (Life (l_net x) (rev obs ++ l_alive x)) s I NL) as (w & R & I1 & L1). rewrite R. cbn [bind l_net l_alive] in *.
      rewrite lrun_all_app. assert (RG : registered (n_log w) s = []) by (rewrite L1, registered_snoc; cbn [reg_step]; apply setm_same).
      destruct (adds f s obs (Life w (rev obs ++ l_alive x))) as (w2 & R2 & I2 & L2 & LV2 & RG2 & _); cbn [l_net l_alive]; auto.
      { rewrite L1, living_snoc. cbn [live_step]. left. reflexivity. }
      { rewrite RG. intros o _ []. }
      { rewrite RG. exact C. }
      rewrite R2. cbn [bind lrun_all l_net l_alive] in *. rewrite RG in RG2. cbn [app] in RG2.
      destruct (silent_destroy Max on_data on_disc f w2 s I2 LV2 (fun l o => QC l s o)) as (w3 & R3 & L3).
      cbn [ObsLifeModel.lrun l_net l_alive]. rewrite R3. cbn [bind]. rewrite L3, skip_log, RG2.
      assert (SN : sane (rev obs ++ l_alive x) (map (fun o => NDisc s o) obs ++ [NRet (NDestroy s) ok] : list (nev V)) = true).
      { apply sane_forall. apply Forall_app. split; [|constructor; [intros o H; discriminate|constructor]].
        rewrite Forall_forall. intros ev H o E. apply in_map_iff in H. destruct H as (p & <- & H). inversion E; subst p.
        apply in_or_app. left. apply -> in_rev. exact H. }
      rewrite SN. cbn [bind]. destruct (ends (S f) (rev obs) (Life w3 (rev obs ++ l_alive x))) as (al & R4 & A4).
      { apply NoDup_rev, ND. }
      { intros o H. cbn [l_alive]. apply in_or_app. left. exact H. }
      cbn [l_net] in R4. rewrite R4. eexists. split; [reflexivity|]. cbn [l_net l_alive] in *. split.
      - intros o. rewrite A4, in_app_iff. split; [tauto|]. intros H. split; [right; exact H|]. intros H2. apply (NA o); [apply in_rev; exact H2|exact H].
      - rewrite L3, RG2, L2, L1, <- !app_assoc. reflexivity.
    Qed.
  End SilentScope.

  (** Careful clients with callbacks that name only living observables and do not clear. *)
  Lemma careful_done x c f : careful Max on_data on_disc x -> careful_call on_data on_disc x c ->
    proper Max (living (n_log (l_net x))) c ->
    (forall log s o v, living log = living (n_log (l_net x)) -> plain (living (n_log (l_net x))) (on_data log s o v)) ->
    (forall log s o, living log = living (n_log (l_net x)) -> plain (living (n_log (l_net x))) (on_disc log s o)) ->
    (forall log s o, no_nclear (on_disc log s o)) -> (2 * length (living (n_log (l_net x))) + 2 <= f)%nat ->
    exists w, lrun f x (LCall c) = Ok (Life w (l_alive x)).
  Proof.
    intros C CC P PD PC NC B. destruct (careful_tidy x C) as (I & _).
    pose proof (idle_le Max on_data on_disc (n_log (l_net x))) as LE.
    pose proof (client_must Max on_data on_disc true f (l_net x) c PD PC ltac:(intros _; split; [exact NC|lia]) I P) as D.
    unfold must, done in D. destruct (nrun f (l_net x) c) as [[w e]| |] eqn:R; [|contradiction|contradiction].
    exists w. exact (careful_safe x c f w e C CC R).
  Qed.
End Life.
