(** Networks of derived values. *)
From Verif Require Export VNetProofs.

Section Derive.
  Variable ty : addr -> ity.
  Variable Max : addr -> Z.
  Hypothesis T : forall s, ity_ok (ty s).
  Variable form : addr -> formula.
  Variable target : addr -> option addr.
  Variable on_disc : list xev -> addr -> xbody.
  Notation upd := (deriving form target).
  Notation xrun := (xrun ty Max upd on_disc).
  Notation xinv := (xinv ty Max).

  (** ** Registrations stay *)
  Definition calm_call (c : xcall) : Prop :=
    match c with XOp _ _ | XValue _ => True | _ => False end.
  Inductive calm : xbody -> Prop :=
  | calm_return : calm XReturn
  | calm_do c k : calm_call c -> (forall r, calm (k r)) -> calm (XDo c k).
  Lemma reading_calm l : forall k, (forall vs, calm (k vs)) -> calm (reading l k).
  Proof. induction l as [|s l IH]; intros k H; cbn [reading]; [apply H|]. constructor; [exact Logic.I|]. intros r. apply IH. auto. Qed.
  Lemma upd_calm log o n : calm (upd log o n).
  Proof.
    unfold deriving. destruct (target o) as [d|]; [|constructor]. apply reading_calm. intros vs.
    constructor; [exact Logic.I|]. intros _. constructor.
  Qed.
  Lemma upd_tame log o n : xtame ty (upd log o n).
  Proof.
    unfold deriving. destruct (target o) as [d|]; [|constructor]. unfold recompute.
    assert (G : forall l k, (forall vs, xtame ty (k vs)) -> xtame ty (reading l k)).
    { induction l as [|s l IH]; intros k H; cbn [reading]; [apply H|]. constructor; [exact Logic.I|]. intros r. apply IH. auto. }
    apply G. intros vs. constructor; [|intros _; constructor]. cbn [xtame_call]. intros x _ [_ F]. exact F.
  Qed.

  Lemma calm_keeps f : forall w c w' r, calm_call c -> xrun f w c = Ok (w', r) ->
    xmembers (x_log w') = xmembers (x_log w).
  Proof.
    induction f as [|f IH]; intros w c w' r C E; [discriminate|].
    assert (B : forall b, calm b -> forall w w', xbody_run (xrun f) b w = Ok w' -> xmembers (x_log w') = xmembers (x_log w)).
    { clear - IH. induction 1 as [|c k C K IHb]; intros w w' E; cbn [xbody_run] in E.
      - inversion E. reflexivity.
      - destruct (xrun f w c) as [[w1 r]| |] eqn:E1; cbn [bind] in E; try discriminate.
        rewrite (IHb r w1 w' E). exact (IH w c w1 r C E1). }
    cbn [VNetModel.xrun] in E. destruct c as [s o|s o|s|s n|s o|s]; try destruct C.
    - destruct (published (ty s) (x_val (x_cell w s)) o) as [p| |]; cbn [bind] in E; try discriminate.
      set (w0 := xnote _ _) in E. unfold xnotify in E.
      assert (L : forall g k i w w', (forall i w w', g i w = Ok w' -> xmembers (x_log w') = xmembers (x_log w)) ->
                xloop g i k w = Ok w' -> xmembers (x_log w') = xmembers (x_log w)).
      { clear. intros g. induction k as [|k IH]; intros i w w' H E; cbn [xloop] in E; [inversion E; reflexivity|].
        destruct (g i w) as [w1| |] eqn:E1; cbn [bind] in E; try discriminate.
        rewrite (IH _ _ _ H E). exact (H _ _ _ E1). }
      assert (W0 : xmembers (x_log w0) = xmembers (x_log w)).
      { unfold w0, xnote, xplace. cbn [x_log]. rewrite xmembers_snoc. reflexivity. }
      destruct (max_observers (Max s) <? x_cnt (x_cell w0 s))%nat; cbn [bind] in E.
      + inversion E; subst. unfold xnote at 1. cbn [x_log]. rewrite xmembers_snoc. cbn [xmember_step]. exact W0.
      + match type of E with context[xloop ?f _ _ _] => set (g := f) in E end.
        destruct (xloop g 0 (x_cnt (x_cell w0 s)) w0) as [w1| |] eqn:E1; cbn [bind] in E; try discriminate.
        inversion E; subst. unfold xnote. cbn [x_log]. rewrite xmembers_snoc. cbn [xmember_step].
        rewrite <- W0. refine (L g _ _ _ _ _ E1). clear - B. intros i w w' E.
        unfold g, xround in E. destruct (slot (x_slots (x_cell w s)) i) as [[o'|]| |]; cbn [bind] in E; try discriminate.
        rewrite (B _ (upd_calm _ _ _) _ _ E). unfold xnote, xkeep. cbn [x_log]. rewrite xmembers_snoc. reflexivity.
    - inversion E; subst. unfold xnote. cbn [x_log]. rewrite xmembers_snoc. reflexivity.
  Qed.

  (** ** The run of an operator, member by member *)
  Variable m : addr -> list addr.
  Definition known (w : vnet) : Prop := xinv w /\ xmembers (x_log w) = m.
  Notation feeds := (feeds target m).
  Notation leads := (leads target m).
  Notation ways := (ways target m).

  Lemma known_run f w c w' r : known w -> calm_call c -> xrun f w c = Ok (w', r) -> known w'.
  Proof.
    intros [I M] C E. split; [exact (xe_inv _ _ _ _ (xrun_ext ty Max T upd on_disc f w c w' r I E))|].
    rewrite (calm_keeps f w c w' r C E). exact M.
  Qed.
  Lemma known_body f b : calm b -> forall w w', known w -> xbody_run (xrun f) b w = Ok w' -> known w'.
  Proof.
    induction 1 as [|c k C K IHb]; intros w w' KN E; cbn [xbody_run] in E.
    - inversion E. subst. exact KN.
    - destruct (xrun f w c) as [[w1 r]| |] eqn:E1; cbn [bind] in E; try discriminate.
      exact (IHb r w1 w' (known_run f w c w1 r KN C E1) E).
  Qed.

  Definition entry (s : addr) (n : Z) (w : vnet) (o : addr) : vnet := xnote (xkeep w o n) (XStore s o n).
  Fixpoint tell (f : nat) (s : addr) (n : Z) (l : list addr) (w : vnet) : res vnet :=
    match l with
    | [] => Ok w
    | o :: rest => w' <- xbody_run (xrun f) (upd (x_log w) o n) (entry s n w o) ;; tell f s n rest w'
    end.

  Lemma nth_slot w s pre o rest : known w -> m s = pre ++ o :: rest ->
    slot (x_slots (x_cell w s)) (length pre) = Ok (Some o) /\ In (Some o) (x_slots (x_cell w s)).
  Proof.
    intros [I M] E. destruct (xi_cell _ _ w I s) as [_ [r H2] _ _ _ _]. rewrite M, E in H2. rewrite H2.
    rewrite map_app. cbn [map]. rewrite <- app_assoc. cbn [app].
    split; [rewrite <- (map_length (@Some addr) pre); apply slot_app|].
    apply in_or_app. right. left. reflexivity.
  Qed.
  Lemma known_entry w s n pre o rest : known w -> m s = pre ++ o :: rest -> known (entry s n w o).
  Proof.
    intros K E. destruct (nth_slot w s pre o rest K E) as [_ S2]. destruct K as [I M]. split.
    - unfold entry, xkeep. exact (xe_inv _ _ _ _ (xext_plain ty Max w _ (XStore s o n) I
        (xc_added _ _ _ _ _ (xi_cell _ _ w I s) o S2) eq_refl)).
    - unfold entry, xnote, xkeep. cbn [x_log]. rewrite xmembers_snoc. exact M.
  Qed.

  Lemma xloop_tell f s n : forall l pre w, known w -> m s = pre ++ l ->
    xloop (xround (fun w o => entry s n w o) (fun log o => upd log o n) (xrun f) s) (length pre) (length l) w
    = tell f s n l w.
  Proof.
    induction l as [|o l IH]; intros pre w K E; [reflexivity|].
    cbn [length xloop tell]. unfold xround at 1. destruct (nth_slot w s pre o l K E) as [-> _]. cbn [bind].
    destruct (xbody_run (xrun f) (upd (x_log w) o n) (entry s n w o)) as [w1| |] eqn:E1; try reflexivity. cbn [bind].
    specialize (IH (pre ++ [o]) w1). rewrite app_length in IH. cbn [length] in IH.
    replace (length pre + 1)%nat with (S (length pre)) in IH by lia.
    apply IH; [|rewrite <- app_assoc; exact E].
    exact (known_body f _ (upd_calm _ _ _) _ _ (known_entry w s n pre o l K E) E1).
  Qed.

  Definition updated (w : vnet) (s : addr) (op : vop) : vnet :=
    xnote (xplace w s (VCell (apply_atomic (ty s) (x_val (x_cell w s)) op) (x_slots (x_cell w s)) (x_cnt (x_cell w s))))
          (XApplied s op).
  Lemma known_updated w s op : known w -> known (updated w s op).
  Proof.
    intros [I M]. split; [exact (xe_inv _ _ _ _ (xinv_apply ty Max T w s op I))|].
    unfold updated, xnote, xplace. cbn [x_log]. rewrite xmembers_snoc. exact M.
  Qed.

  Lemma op_run f w s op : known w ->
    xrun (S f) w (XOp s op)
    = (p <- published (ty s) (xvalue w s) op ;;
       w1 <- tell f s p (m s) (updated w s op) ;;
       Ok (xnote w1 (XRet (XOp s op) (RVal p)), RVal p)).
  Proof.
    intros K. cbn [VNetModel.xrun]. fold (updated w s op). unfold xvalue.
    destruct (published (ty s) (x_val (x_cell w s)) op) as [p| |]; try reflexivity. cbn [bind].
    pose proof (known_updated w s op K) as K0. unfold xnotify.
    pose proof (xi_cell _ _ _ (proj1 K0) s) as C.
    replace (max_observers (Max s) <? x_cnt (x_cell (updated w s op) s))%nat with false
      by (pose proof (xcok_le _ _ T _ _ _ C); lia).
    replace (x_cnt (x_cell (updated w s op) s)) with (length (m s))
      by (rewrite (xc_cnt _ _ _ _ _ C), (proj2 K0); reflexivity).
    pose proof (xloop_tell f s p (m s) [] (updated w s op) K0 eq_refl) as L. cbn [length] in L.
    unfold entry in L. rewrite L. destruct (tell f s p (m s) (updated w s op)); reflexivity.
  Qed.

  (** ** Recomputing *)
  Fixpoint reads (w : vnet) (l : list addr) : vnet :=
    match l with [] => w | s :: r => reads (xnote w (XRet (XValue s) (RVal (xvalue w s)))) r end.
  Lemma reads_same w l : x_cell (reads w l) = x_cell w /\ x_mirror (reads w l) = x_mirror w /\
    exists evs, x_log (reads w l) = x_log w ++ evs /\ (forall u, updates u evs = 0%nat) /\ (forall o, given o evs = []).
  Proof.
    revert w. induction l as [|s l IH]; intros w; cbn [reads].
    - split; [reflexivity|]. split; [reflexivity|]. exists []. rewrite app_nil_r. repeat split.
    - destruct (IH (xnote w (XRet (XValue s) (RVal (xvalue w s))))) as (A & B & evs & C & D & E).
      split; [exact A|]. split; [exact B|]. exists (XRet (XValue s) (RVal (xvalue w s)) :: evs).
      rewrite C. unfold xnote. cbn [x_log]. rewrite <- app_assoc. split; [reflexivity|].
      split; [exact D|exact E].
  Qed.
  Lemma reading_run f l : forall k w,
    xbody_run (xrun (S f)) (reading l k) w = xbody_run (xrun (S f)) (k (map (xvalue w) l)) (reads w l).
  Proof.
    induction l as [|s l IH]; intros k w; [reflexivity|].
    cbn [reading xbody_run reads map]. cbn [VNetModel.xrun bind]. fold (xrun (S f)). rewrite IH. reflexivity.
  Qed.
  Lemma known_reads l : forall w, known w -> known (reads w l).
  Proof.
    induction l as [|s l IH]; intros w K; [exact K|]. cbn [reads]. apply IH. destruct K as [I M]. split.
    - exact (xe_inv _ _ _ _ (xext_plain' ty Max w (XRet (XValue s) (RVal (xvalue w s))) I Logic.I eq_refl)).
    - unfold xnote. cbn [x_log]. rewrite xmembers_snoc. exact M.
  Qed.

  (** What a derived observable would be set to. *)
  Definition fresh_value (w : vnet) (d : addr) : Z := f_of (form d) (map (xvalue w) (f_inputs (form d))).

  Lemma recompute_run f w d :
    xbody_run (xrun f) (recompute form d) w
    = match f with
      | O => Fuel
      | S _ => ' (w', _) <- xrun f (reads w (f_inputs (form d))) (XOp d (Assign (fresh_value w d))) ;; Ok w'
      end.
  Proof.
    unfold recompute. destruct f as [|f].
    - destruct (f_inputs (form d)); reflexivity.
    - rewrite reading_run. cbn [xbody_run]. fold (fresh_value w d).
      destruct (xrun (S f) (reads w (f_inputs (form d))) (XOp d (Assign (fresh_value w d)))) as [[w' r]| |]; reflexivity.
  Qed.
  Lemma round_run f w o d s n : target o = Some d ->
    xbody_run (xrun f) (upd (x_log w) o n) (entry s n w o)
    = match f with
      | O => Fuel
      | S _ => ' (w', _) <- xrun f (reads (entry s n w o) (f_inputs (form d))) (XOp d (Assign (fresh_value w d))) ;; Ok w'
      end.
  Proof. intros E. unfold deriving. rewrite E. exact (recompute_run f (entry s n w o) d). Qed.
  Lemma round_quiet f w o s n : target o = None -> xbody_run (xrun f) (upd (x_log w) o n) (entry s n w o) = Ok (entry s n w o).
  Proof. intros E. unfold deriving. rewrite E. reflexivity. Qed.

  (** ** Cycles *)
  Lemma leads_trans a b c : leads a b -> leads b c -> leads a c.
  Proof.
    induction 1 as [a b F|a d b F L IH]; intros H.
    - exact (leads_more _ _ _ _ _ F H).
    - exact (leads_more _ _ _ _ _ F (IH H)).
  Qed.

  Lemma endless f : forall w s op u, known w -> leads s u -> leads u u ->
    forall w' r, xrun f w (XOp s op) <> Ok (w', r).
  Proof.
    induction f as [|f IH]; intros w s op u K L C w' r E; [discriminate|].
    rewrite op_run in E by exact K.
    destruct (published (ty s) (xvalue w s) op) as [p| |]; cbn [bind] in E; try discriminate.
    destruct (tell f s p (m s) (updated w s op)) as [w1| |] eqn:E1; cbn [bind] in E; try discriminate.
    assert (F : exists d, feeds s d /\ leads d u).
    { destruct L as [s d F|s d u F L]; exists d; auto. }
    destruct F as (d & (o & Ho & Ht) & Ld).
    assert (G : forall l pre w w1, known w -> m s = pre ++ l -> tell f s p l w = Ok w1 -> ~ In o l).
    { clear E1 E. induction l as [|x l IHl]; intros pre w0 w2 K0 EM E0; [intros []|]. cbn [tell] in E0.
      destruct (xbody_run (xrun f) (upd (x_log w0) x p) (entry s p w0 x)) as [w3| |] eqn:E3; cbn [bind] in E0; try discriminate.
      pose proof (known_entry w0 s p pre x l K0 EM) as KE.
      intros [->|H].
      - rewrite (round_run f w0 o d s p Ht) in E3. destruct f as [|f']; [discriminate|].
        destruct (xrun (S f') (reads (entry s p w0 o) (f_inputs (form d))) (XOp d (Assign (fresh_value w0 d)))) as [[w4 r4]| |] eqn:E4;
          cbn [bind] in E3; try discriminate.
        exact (IH _ _ _ u (known_reads _ _ KE) Ld C _ _ E4).
      - apply (IHl (pre ++ [x]) w3 w2); [|rewrite <- app_assoc; exact EM|exact E0|exact H].
        exact (known_body f _ (upd_calm _ _ _) _ _ KE E3). }
    exact (G (m s) [] _ w1 (known_updated w s op K) eq_refl E1 Ho).
  Qed.

  (** ** The outcome of an update that returns *)
  Notation complete := (complete target m form).
  Notation exclusive := (exclusive m).
  Notation settled := (settled ty form).
  Definition fed (a : addr) : Prop := exists x, feeds x a.
  Definition sum_ways (k : nat) (l : list addr) (u : addr) : nat :=
    fold_right (fun o n => match target o with Some d => ways k d u + n | None => n end)%nat 0%nat l.

  Record outcome (f : nat) (s : addr) (p : Z) (op : vop) (w w' : vnet) : Prop := {
    oc_val : xvalue w' s = apply_atomic (ty s) (xvalue w s) op;
    oc_other : forall a, a <> s -> ~ leads s a -> xvalue w' a = xvalue w a;
    oc_settle : complete -> forall a, a <> s -> fed a -> settled w a \/ leads s a -> settled w' a;
    oc_told : exclusive -> forall o, In o (m s) -> x_mirror w' o = p;
    oc_kept : forall o, ~ In o (m s) -> (forall a, leads s a -> ~ In o (m a)) -> x_mirror w' o = x_mirror w o;
    oc_mirror : exclusive -> forall a, a <> s -> mirrored w a \/ leads s a -> mirrored w' a;
    oc_log : exists evs, x_log w' = x_log w ++ evs /\
      (forall u k, (f <= k)%nat -> updates u evs = ways k s u) /\
      (exclusive -> forall u o k, (f <= k)%nat -> In o (m u) -> length (given o evs) = ways k s u)
  }.

  Definition reachl (l : list addr) (a : addr) : Prop :=
    exists o d, In o l /\ target o = Some d /\ (a = d \/ leads d a).
  Record loop_out (f : nat) (s : addr) (n : Z) (l : list addr) (w w' : vnet) : Prop := {
    lo_other : forall a, ~ reachl l a -> xvalue w' a = xvalue w a;
    lo_settle : complete -> forall a, fed a -> settled w a \/ reachl l a -> settled w' a;
    lo_told : exclusive -> forall o, In o l -> x_mirror w' o = n;
    lo_kept : forall o, ~ In o l -> (forall a, reachl l a -> ~ In o (m a)) -> x_mirror w' o = x_mirror w o;
    lo_mirror : exclusive -> forall a, a <> s -> mirrored w a \/ reachl l a -> mirrored w' a;
    lo_log : exists evs, x_log w' = x_log w ++ evs /\
      (forall u k, (f <= k)%nat -> updates u evs = sum_ways k l u) /\
      (exclusive -> forall u o k, (f <= k)%nat -> In o (m u) ->
         length (given o evs) = (if in_dec Pos.eq_dec o l then 1 else 0) + sum_ways k l u)%nat
  }.

  Lemma updates_app u a b : updates u (a ++ b) = (updates u a + updates u b)%nat.
  Proof. unfold updates. rewrite filter_app, app_length. reflexivity. Qed.
  Lemma given_app o a b : given o (a ++ b) = given o a ++ given o b.
  Proof. unfold given. apply flat_map_app. Qed.
  Lemma reachl_cons o l a : reachl (o :: l) a <-> (exists d, target o = Some d /\ (a = d \/ leads d a)) \/ reachl l a.
  Proof.
    split.
    - intros (o' & d & [->|H] & Ht & R); [left; exists d; auto|right; exists o', d; auto].
    - intros [(d & Ht & R)|(o' & d & H & Ht & R)].
      + exists o, d. split; [left; reflexivity|auto].
      + exists o', d. split; [right; exact H|auto].
  Qed.
  Lemma reachl_leads s l a : incl l (m s) -> reachl l a -> leads s a.
  Proof.
    intros IN (o & d & H & Ht & R). assert (F : feeds s d) by (exists o; split; [apply IN, H|exact Ht]).
    destruct R as [->|R]; [exact (leads_one _ _ _ _ F)|exact (leads_more _ _ _ _ _ F R)].
  Qed.
  Lemma leads_reachl s a : leads s a -> reachl (m s) a.
  Proof.
    intros H. destruct H as [s d (o & Ho & Ht)|s d u (o & Ho & Ht) L]; exists o, d; split; auto.
  Qed.
  Lemma settled_values w w' d : x_cell w' = x_cell w -> settled w d -> settled w' d.
  Proof. unfold VNetSpec.settled, xvalue. intros E. rewrite E. tauto. Qed.

  Section Round.
    Variable f : nat.
    Hypothesis IH : forall w s op w' r, known w -> xrun f w (XOp s op) = Ok (w', r) ->
      exists p, r = RVal p /\ published (ty s) (xvalue w s) op = Ok p /\ outcome f s p op w w'.
    Variable s : addr.
    Variable n : Z.
    Hypothesis NC : forall u, leads s u -> ~ leads u u.

    Lemma tell_out : forall l pre w w', known w -> m s = pre ++ l -> NoDup (m s) ->
      tell f s n l w = Ok w' -> loop_out f s n l w w'.
    Proof.
      induction l as [|o l IHl]; intros pre w w' K EM ND E; cbn [tell] in E.
      { inversion E; subst w'. split; auto.
        - intros _ a _ [H|(o & d & [] & _)]. exact H.
        - intros _ o [].
        - intros _ a _ [H|(o & d & [] & _)]. exact H.
        - exists []. rewrite app_nil_r. split; [reflexivity|]. split; [reflexivity|]. intros _ u o k _ _. reflexivity. }
      destruct (xbody_run (xrun f) (upd (x_log w) o n) (entry s n w o)) as [w1| |] eqn:E1; cbn [bind] in E; try discriminate.
      pose proof (known_entry w s n pre o l K EM) as KE.
      pose proof (known_body f _ (upd_calm _ _ _) _ _ KE E1) as K1.
      assert (EM' : m s = (pre ++ [o]) ++ l) by (rewrite <- app_assoc; exact EM).
      specialize (IHl (pre ++ [o]) w1 w' K1 EM' ND E).
      assert (Ho : In o (m s)) by (rewrite EM; apply in_elt).
      assert (Nl : ~ In o l).
      { rewrite EM in ND. apply NoDup_remove_2 in ND. intros H. apply ND, in_or_app. right. exact H. }
      assert (IN : incl (o :: l) (m s)) by (intros x H; rewrite EM; apply in_or_app; right; exact H).
      assert (KM : x_mirror (entry s n w o) = set_mirror (x_mirror w) o n) by reflexivity.
      destruct (target o) as [d|] eqn:Ht.
      - (* the observed recomputes [d] *)
        rewrite (round_run f w o d s n Ht) in E1. destruct f as [|f'] eqn:Ef; [discriminate|]. rewrite <- Ef in *.
        set (wr := reads (entry s n w o) (f_inputs (form d))) in E1.
        destruct (reads_same (entry s n w o) (f_inputs (form d))) as (RC & RM & er & RL & RU & RG). fold wr in RC, RM, RL.
        destruct (xrun f wr (XOp d (Assign (fresh_value w d)))) as [[w2 r2]| |] eqn:E2; cbn [bind] in E1; try discriminate.
        inversion E1; subst w2. clear E1.
        assert (Kr : known wr) by (apply known_reads; exact KE).
        destruct (IH wr d _ w1 r2 Kr E2) as (p & _ & HP & OC). inversion HP; subst p. clear HP.
        assert (F : feeds s d) by (exists o; split; assumption).
        assert (Nd : ~ leads d d) by (apply NC; exact (leads_one _ _ _ _ F)).
        assert (NS : d <> s) by (intros ->; exact (Nd (leads_one _ _ _ _ F))).
        assert (NL : ~ leads d s).
        { intros H. exact (Nd (leads_trans _ _ _ H (leads_one _ _ _ _ F))). }
        assert (VR : forall a, xvalue wr a = xvalue w a) by (intros a; unfold xvalue; rewrite RC; reflexivity).
        assert (M1 : complete -> settled w1 d).
        { intros CP. unfold VNetSpec.settled. rewrite (oc_val _ _ _ _ _ _ OC). cbn [apply_atomic]. f_equal.
          unfold fresh_value. f_equal. apply map_ext_in. intros x Hx.
          assert (Fx : feeds x d) by exact (CP s d x F Hx).
          rewrite (oc_other _ _ _ _ _ _ OC x), VR; [reflexivity| |].
          - intros ->. exact (Nd (leads_one _ _ _ _ Fx)).
          - intros H. exact (Nd (leads_trans _ _ _ H (leads_one _ _ _ _ Fx))). }
        assert (ML : mirrored w1 d \/ True) by (right; exact Logic.I). clear ML.
        assert (MD : exclusive -> mirrored w1 d).
        { intros EX y Hy. rewrite (proj2 K1) in Hy. rewrite (oc_told _ _ _ _ _ _ OC EX y Hy), (oc_val _ _ _ _ _ _ OC). reflexivity. }
        split.
        + intros a NR. rewrite reachl_cons in NR. rewrite (lo_other _ _ _ _ _ _ IHl a) by tauto.
          rewrite (oc_other _ _ _ _ _ _ OC a); [apply VR| |]; intros H; apply NR; left; exists d; auto.
        + intros CP a FA H. apply (lo_settle _ _ _ _ _ _ IHl CP a FA). rewrite reachl_cons in H.
          destruct (Pos.eq_dec a d) as [->|Na]; [left; apply M1, CP|].
          destruct H as [H|[(d' & Hd & [->|R])|H]]; [| | |right; exact H].
          * left. apply (oc_settle _ _ _ _ _ _ OC CP a Na FA). left. apply (settled_values w); [rewrite RC; reflexivity|exact H].
          * congruence.
          * left. replace d' with d in R by congruence. apply (oc_settle _ _ _ _ _ _ OC CP a Na FA). right. exact R.
        + intros EX x [->|Hx]; [|exact (lo_told _ _ _ _ _ _ IHl EX x Hx)].
          rewrite (lo_kept _ _ _ _ _ _ IHl x Nl).
          * rewrite (oc_kept _ _ _ _ _ _ OC x).
            -- rewrite RM, KM. unfold set_mirror. rewrite Pos.eqb_refl. reflexivity.
            -- intros H. apply NS. exact (EX d s x H Ho).
            -- intros a La Ha. apply NL. rewrite <- (EX a s x Ha Ho). exact La.
          * intros a R Ha. pose proof (reachl_leads s l a (fun y H => IN y (or_intror H)) R) as La.
            rewrite (EX a s x Ha Ho) in La. exact (NC s La La).
        + intros x Nx NR. rewrite (lo_kept _ _ _ _ _ _ IHl x).
          * rewrite (oc_kept _ _ _ _ _ _ OC x).
            -- rewrite RM, KM. unfold set_mirror. destruct (Pos.eqb_spec x o) as [->|N]; [|reflexivity].
               exfalso. apply Nx. left. reflexivity.
            -- apply NR, reachl_cons. left. exists d. auto.
            -- intros a La. apply NR, reachl_cons. left. exists d. auto.
          * intros H. apply Nx. right. exact H.
          * intros a R. apply NR, reachl_cons. right. exact R.
        + intros EX a Na H. apply (lo_mirror _ _ _ _ _ _ IHl EX a Na). rewrite reachl_cons in H.
          destruct (Pos.eq_dec a d) as [->|Nd']; [left; apply MD, EX|].
          destruct H as [H|[(d' & Hd & [->|R])|H]]; [| | |right; exact H].
          * left. apply (oc_mirror _ _ _ _ _ _ OC EX a Nd'). left. intros y Hy.
            rewrite (proj2 Kr) in Hy. rewrite VR, RM, KM. unfold set_mirror.
            destruct (Pos.eqb_spec y o) as [->|N]; [exfalso; apply Na; exact (EX a s o Hy Ho)|].
            apply H. rewrite (proj2 K). exact Hy.
          * congruence.
          * left. replace d' with d in R by congruence. apply (oc_mirror _ _ _ _ _ _ OC EX a Nd'). right. exact R.
        + destruct (oc_log _ _ _ _ _ _ OC) as (e1 & L1 & U1 & G1).
          destruct (lo_log _ _ _ _ _ _ IHl) as (e2 & L2 & U2 & G2).
          exists (XStore s o n :: er ++ e1 ++ e2).
          split; [|split].
          * rewrite L2, L1, RL. unfold entry, xnote, xkeep. cbn [x_log]. rewrite <- !app_assoc. reflexivity.
          * intros u k Lk. change (XStore s o n :: er ++ e1 ++ e2) with ([XStore s o n] ++ er ++ e1 ++ e2).
            rewrite !updates_app, RU, (U1 u k Lk), (U2 u k Lk). cbn [sum_ways fold_right]. rewrite Ht. reflexivity.
          * intros EX u x k Lk Hx. change (XStore s o n :: er ++ e1 ++ e2) with ([XStore s o n] ++ er ++ e1 ++ e2).
            rewrite !given_app, RG, !app_length, (G1 EX u x k Lk Hx), (G2 EX u x k Lk Hx).
            cbn [sum_ways fold_right]. rewrite Ht. fold (sum_ways k l u).
            unfold given at 1. cbn [flat_map]. destruct (Pos.eqb_spec o x) as [->|N].
            -- destruct (in_dec Pos.eq_dec x (x :: l)) as [_|H]; [|exfalso; apply H; left; reflexivity].
               destruct (in_dec Pos.eq_dec x l); [contradiction|]. cbn [app length]. lia.
            -- destruct (in_dec Pos.eq_dec x (o :: l)) as [H|H]; destruct (in_dec Pos.eq_dec x l) as [H'|H']; cbn [app length]; try lia.
               ++ destruct H; congruence.
               ++ exfalso. apply H. right. exact H'.
      - (* the observed only keeps the value *)
        rewrite (round_quiet f w o s n Ht) in E1. inversion E1; subst w1. clear E1.
        assert (RQ : forall a, reachl (o :: l) a <-> reachl l a).
        { intros a. rewrite reachl_cons. split; [|tauto]. intros [(d & Hd & _)|H]; [congruence|exact H]. }
        split.
        + intros a NR. rewrite RQ in NR. exact (lo_other _ _ _ _ _ _ IHl a NR).
        + intros CP a FA H. rewrite RQ in H. exact (lo_settle _ _ _ _ _ _ IHl CP a FA H).
        + intros EX x [->|Hx]; [|exact (lo_told _ _ _ _ _ _ IHl EX x Hx)].
          rewrite (lo_kept _ _ _ _ _ _ IHl x Nl).
          * rewrite KM. unfold set_mirror. rewrite Pos.eqb_refl. reflexivity.
          * intros a R Ha. pose proof (reachl_leads s l a (fun y H => IN y (or_intror H)) R) as La.
            rewrite (EX a s x Ha Ho) in La. exact (NC s La La).
        + intros x Nx NR. rewrite (lo_kept _ _ _ _ _ _ IHl x).
          * rewrite KM. unfold set_mirror. destruct (Pos.eqb_spec x o) as [->|N]; [|reflexivity].
            exfalso. apply Nx. left. reflexivity.
          * intros H. apply Nx. right. exact H.
          * intros a R. apply NR, RQ, R.
        + intros EX a Na H. apply (lo_mirror _ _ _ _ _ _ IHl EX a Na). rewrite RQ in H.
          destruct H as [H|H]; [left|right; exact H]. intros y Hy.
          rewrite (proj2 K1) in Hy. rewrite KM. unfold set_mirror.
          destruct (Pos.eqb_spec y o) as [->|N]; [exfalso; apply Na; exact (EX a s o Hy Ho)|].
          apply H. rewrite (proj2 K). exact Hy.
        + destruct (lo_log _ _ _ _ _ _ IHl) as (e2 & L2 & U2 & G2).
          exists (XStore s o n :: e2). split; [|split].
          * rewrite L2. unfold entry, xnote, xkeep. cbn [x_log]. rewrite <- app_assoc. reflexivity.
          * intros u k Lk. cbn [sum_ways fold_right]. rewrite Ht. exact (U2 u k Lk).
          * intros EX u x k Lk Hx. change (XStore s o n :: e2) with ([XStore s o n] ++ e2).
            rewrite given_app, app_length, (G2 EX u x k Lk Hx). cbn [sum_ways fold_right]. rewrite Ht. fold (sum_ways k l u).
            unfold given at 1. cbn [flat_map]. destruct (Pos.eqb_spec o x) as [->|N].
            -- destruct (in_dec Pos.eq_dec x (x :: l)) as [_|H]; [|exfalso; apply H; left; reflexivity].
               destruct (in_dec Pos.eq_dec x l); [contradiction|]. cbn [app length]. lia.
            -- destruct (in_dec Pos.eq_dec x (o :: l)) as [H|H]; destruct (in_dec Pos.eq_dec x l) as [H'|H']; cbn [app length]; try lia.
               ++ destruct H; congruence.
               ++ exfalso. apply H. right. exact H'.
    Qed.
  End Round.

  Lemma xvalue_updated w s op a :
    xvalue (updated w s op) a = if Pos.eq_dec a s then apply_atomic (ty s) (xvalue w s) op else xvalue w a.
  Proof.
    unfold updated, xvalue, xnote, xplace. cbn [x_cell].
    destruct (Pos.eq_dec a s) as [->|N]; [rewrite at_same; reflexivity|]. rewrite (at_other (x_cell w) a s _ N). reflexivity.
  Qed.

  Lemma op_out f : forall w s op w' r, known w -> xrun f w (XOp s op) = Ok (w', r) ->
    exists p, r = RVal p /\ published (ty s) (xvalue w s) op = Ok p /\ outcome f s p op w w'.
  Proof.
    induction f as [|f IH]; intros w s op w' r K E; [discriminate|].
    assert (NC : forall u, leads s u -> ~ leads u u).
    { intros u L C. exact (endless (S f) w s op u K L C w' r E). }
    rewrite op_run in E by exact K.
    destruct (published (ty s) (xvalue w s) op) as [p| |] eqn:HP; cbn [bind] in E; try discriminate.
    destruct (tell f s p (m s) (updated w s op)) as [w1| |] eqn:E1; cbn [bind] in E; try discriminate.
    inversion E; subst w' r. exists p. split; [reflexivity|]. split; [reflexivity|].
    pose proof (known_updated w s op K) as K0.
    assert (ND : NoDup (m s)) by (rewrite <- (proj2 K); exact (xc_nodup _ _ _ _ _ (xi_cell _ _ w (proj1 K) s))).
    pose proof (tell_out f IH s p NC (m s) [] _ w1 K0 eq_refl ND E1) as LO.
    assert (RS : ~ reachl (m s) s).
    { intros R. pose proof (reachl_leads s (m s) s (incl_refl _) R) as L. exact (NC s L L). }
    assert (V : forall a, xvalue (xnote w1 (XRet (XOp s op) (RVal p))) a = xvalue w1 a) by reflexivity.
    split.
    - rewrite V, (lo_other _ _ _ _ _ _ LO s RS), xvalue_updated. destruct (Pos.eq_dec s s); congruence.
    - intros a N L. rewrite V, (lo_other _ _ _ _ _ _ LO a).
      + rewrite xvalue_updated. destruct (Pos.eq_dec a s); congruence.
      + intros R. apply L. exact (reachl_leads s (m s) a (incl_refl _) R).
    - intros CP a N FA H. apply (settled_values w1); [reflexivity|].
      apply (lo_settle _ _ _ _ _ _ LO CP a FA).
      destruct H as [H|H]; [|right; apply leads_reachl, H].
      destruct (in_dec Pos.eq_dec s (f_inputs (form a))) as [Hs|Hs].
      + right. destruct FA as (x & FX). destruct (CP x a s FX Hs) as (o & Ho & Ht). exists o, a. auto.
      + left. unfold VNetSpec.settled in *. rewrite xvalue_updated.
        destruct (Pos.eq_dec a s) as [|_]; [contradiction|]. rewrite H. f_equal. f_equal. apply map_ext_in. intros x Hx.
        rewrite xvalue_updated. destruct (Pos.eq_dec x s); congruence.
    - intros EX o Ho. exact (lo_told _ _ _ _ _ _ LO EX o Ho).
    - intros o N NL. unfold xnote. cbn [x_mirror]. rewrite (lo_kept _ _ _ _ _ _ LO o N); [reflexivity|].
      intros a R. apply NL. exact (reachl_leads s (m s) a (incl_refl _) R).
    - intros EX a N H.
      assert (G : mirrored w1 a).
      { apply (lo_mirror _ _ _ _ _ _ LO EX a N). destruct H as [H|H]; [left|right; apply leads_reachl, H].
        intros o Ho. rewrite (proj2 K0) in Ho. rewrite xvalue_updated. destruct (Pos.eq_dec a s) as [|_]; [contradiction|].
        apply H. rewrite (proj2 K). exact Ho. }
      intros o Ho. apply G. unfold xnote in Ho. cbn [x_log] in Ho. rewrite xmembers_snoc in Ho. exact Ho.
    - destruct (lo_log _ _ _ _ _ _ LO) as (evs & L & U & G).
      exists (XApplied s op :: evs ++ [XRet (XOp s op) (RVal p)]). split; [|split].
      + unfold xnote. cbn [x_log]. rewrite L. unfold updated, xnote, xplace. cbn [x_log]. rewrite <- !app_assoc. reflexivity.
      + intros u [|k] Lk; [lia|].
        change (XApplied s op :: evs ++ [XRet (XOp s op) (RVal p)]) with ([XApplied s op] ++ evs ++ [XRet (XOp s op) (RVal p)]).
        rewrite !updates_app, (U u k) by lia. cbn [VNetSpec.ways]. fold (sum_ways k (m s) u).
        unfold updates. cbn [filter]. destruct (Pos.eqb_spec s u) as [->|N]; [destruct (Pos.eq_dec u u)|destruct (Pos.eq_dec s u)];
          try congruence; cbn [length]; lia.
      + intros EX u o [|k] Lk Ho; [lia|].
        change (XApplied s op :: evs ++ [XRet (XOp s op) (RVal p)]) with ([XApplied s op] ++ evs ++ [XRet (XOp s op) (RVal p)]).
        rewrite !given_app, !app_length, (G EX u o k ltac:(lia) Ho). cbn [VNetSpec.ways]. fold (sum_ways k (m s) u).
        cbn [given flat_map app length].
        destruct (in_dec Pos.eq_dec o (m s)) as [H|H]; destruct (Pos.eq_dec s u) as [->|N]; try lia.
        * exfalso. apply N. exact (EX s u o H Ho).
        * contradiction.
  Qed.

  (** ** Without a cycle the update returns *)
  Lemma ends L : (forall s, m s <> [] -> In s L) -> forall k f P s op w p, known w ->
    NoDup P -> incl P L -> (forall q, In q P -> leads q s) ->
    (forall u, u = s \/ leads s u -> ~ leads u u) ->
    (length L - length P <= k)%nat -> (k < f)%nat ->
    published (ty s) (xvalue w s) op = Ok p ->
    exists w', xrun f w (XOp s op) = Ok (w', RVal p).
  Proof.
    intros HL. induction k as [k IH] using lt_wf_ind. intros f P s op w p K NP IP LP NC Lk Lf HP.
    destruct f as [|f]; [lia|]. rewrite op_run, HP by exact K. cbn [bind].
    assert (G : exists w1, tell f s p (m s) (updated w s op) = Ok w1).
    { assert (GG : forall l pre w, known w -> m s = pre ++ l -> exists w1, tell f s p l w = Ok w1).
      { induction l as [|o l IHl]; intros pre w0 K0 EM; cbn [tell]; [eexists; reflexivity|].
        pose proof (known_entry w0 s p pre o l K0 EM) as KE.
        assert (Ho : In o (m s)) by (rewrite EM; apply in_elt).
        assert (B : exists w1, xbody_run (xrun f) (upd (x_log w0) o p) (entry s p w0 o) = Ok w1).
        { destruct (target o) as [d|] eqn:Ht; [|eexists; apply round_quiet, Ht].
          rewrite (round_run f w0 o d s p Ht).
          assert (F : feeds s d) by (exists o; split; assumption).
          assert (SL : In s L) by (apply HL; intros E; rewrite E in Ho; destruct Ho).
          assert (SP : ~ In s P).
          { intros H. exact (NC s (or_introl eq_refl) (LP s H)). }
          assert (LE : (length (s :: P) <= length L)%nat).
          { apply NoDup_incl_length; [constructor; assumption|]. intros x [<-|H]; [exact SL|exact (IP x H)]. }
          cbn [length] in LE.
          destruct f as [|f']; [lia|].
          set (wr := reads (entry s p w0 o) (f_inputs (form d))).
          destruct (IH (k - 1)%nat ltac:(lia) (S f') (s :: P) d (Assign (fresh_value w0 d)) wr
                       (conv (ty d) (fresh_value w0 d)) (known_reads _ _ KE)) as (w1 & E1).
          - constructor; assumption.
          - intros x [<-|H]; [exact SL|exact (IP x H)].
          - intros q [<-|H]; [exact (leads_one _ _ _ _ F)|].
            exact (leads_trans _ _ _ (LP q H) (leads_one _ _ _ _ F)).
          - intros u [->|Lu]; apply NC; right; [exact (leads_one _ _ _ _ F)|exact (leads_more _ _ _ _ _ F Lu)].
          - cbn [length]. lia.
          - lia.
          - reflexivity.
          - exists w1. rewrite E1. reflexivity. }
        destruct B as (w1 & E1). rewrite E1. cbn [bind].
        apply (IHl (pre ++ [o])); [|rewrite <- app_assoc; exact EM].
        exact (known_body f _ (upd_calm _ _ _) _ _ KE E1). }
      exact (GG (m s) [] _ (known_updated w s op K) eq_refl). }
    destruct G as (w1 & ->). cbn [bind]. eexists. reflexivity.
  Qed.

  (** The observables with members are among those that were added to. *)
  Definition adders (log : list xev) : list addr :=
    flat_map (fun e => match e with XRet (XAdd s _) _ => [s] | _ => [] end) log.
  Lemma adders_all log : forall s, xmembers log s <> [] -> In s (adders log).
  Proof.
    induction log as [|e log IH] using rev_ind; intros s H.
    - exfalso. apply H. reflexivity.
    - rewrite xmembers_snoc in H. unfold adders. rewrite flat_map_app, in_app_iff. fold (adders log).
      destruct e as [a op|a o n|a o|c r]; cbn [xmember_step] in H; try (left; apply IH; exact H).
      destruct c as [a o|a o|a|a n|a op|a]; try (left; apply IH; exact H).
      + destruct (Pos.eq_dec s a) as [->|N]; [right; left; reflexivity|]. left. apply IH.
        destruct r as [[]| |]; try exact H. rewrite (at_other _ s a _ N) in H. exact H.
      + left. apply IH. destruct r as [[]| |]; try exact H.
        destruct (Pos.eqb_spec s a) as [E0|N]; [|exact H]. intros E. apply H. rewrite <- E0, E. reflexivity.
      + left. apply IH. destruct (Pos.eqb_spec s a) as [E0|N]; [|exact H]. exfalso. apply H. reflexivity.
  Qed.

  (** ** Nothing but the operator itself can be undefined *)
  Lemma op_defined f : forall w s op p, known w -> published (ty s) (xvalue w s) op = Ok p ->
    xrun f w (XOp s op) <> UB.
  Proof.
    induction f as [|f IH]; intros w s op p K HP; [discriminate|].
    rewrite op_run, HP by exact K. cbn [bind].
    assert (GG : forall l pre w, known w -> m s = pre ++ l -> tell f s p l w <> UB).
    { induction l as [|o l IHl]; intros pre w0 K0 EM; cbn [tell]; [discriminate|].
      pose proof (known_entry w0 s p pre o l K0 EM) as KE.
      assert (B : xbody_run (xrun f) (upd (x_log w0) o p) (entry s p w0 o) <> UB).
      { destruct (target o) as [d|] eqn:Ht; [|rewrite round_quiet by exact Ht; discriminate].
        rewrite (round_run f w0 o d s p Ht). destruct f as [|f']; [discriminate|].
        pose proof (IH (reads (entry s p w0 o) (f_inputs (form d))) d (Assign (fresh_value w0 d)) _ (known_reads _ _ KE) eq_refl) as X.
        destruct (xrun (S f') (reads (entry s p w0 o) (f_inputs (form d))) (XOp d (Assign (fresh_value w0 d)))) as [[w1 r1]| |];
          cbn [bind]; congruence. }
      destruct (xbody_run (xrun f) (upd (x_log w0) o p) (entry s p w0 o)) as [w1| |] eqn:E1; cbn [bind]; try congruence.
      apply (IHl (pre ++ [o])); [|rewrite <- app_assoc; exact EM].
      exact (known_body f _ (upd_calm _ _ _) _ _ KE E1). }
    pose proof (GG (m s) [] _ (known_updated w s op K) eq_refl) as X.
    destruct (tell f s p (m s) (updated w s op)); cbn [bind]; congruence.
  Qed.

  (** ** A diamond *)
  Lemma xvalue_reads w l a : xvalue (reads w l) a = xvalue w a.
  Proof. unfold xvalue. destruct (reads_same w l) as (-> & _). reflexivity. Qed.
  Lemma given_reads w l o : exists evs, x_log (reads w l) = x_log w ++ evs /\ given o evs = [].
  Proof. destruct (reads_same w l) as (_ & _ & evs & E & _ & G). exists evs. split; [exact E|apply G]. Qed.

  (** An observable with the single observed [o], which only keeps the value. *)
  Lemma leaf_run f w d op p o : known w -> m d = [o] -> target o = None ->
    published (ty d) (xvalue w d) op = Ok p ->
    exists w', xrun (S f) w (XOp d op) = Ok (w', RVal p) /\ known w' /\
      (forall x, xvalue w' x = xvalue (updated w d op) x) /\
      exists evs, x_log w' = x_log w ++ evs /\ given o evs = [p].
  Proof.
    intros K M N P. pose proof (op_run f w d op K) as E. rewrite P, M in E. cbn [bind tell] in E.
    rewrite round_quiet in E by exact N. cbn [bind] in E. eexists. split; [exact E|].
    split; [exact (known_run _ _ (XOp d op) _ _ K Logic.I E)|]. split; [reflexivity|].
    eexists. split.
    - unfold xnote, entry, xkeep, updated, xplace, xnote. cbn [x_log]. rewrite <- !app_assoc. reflexivity.
    - unfold given. cbn [flat_map app]. rewrite Pos.eqb_refl. reflexivity.
  Qed.

  Definition value_of (d : addr) (vs : list Z) : Z := conv (ty d) (f_of (form d) vs).

  (** An observable [a] computed from [x] alone, whose single observed [q] recomputes [d]
      from [a] and [b], which has the single observed [o]. *)
  Lemma side_run f w a d q o v (inp : list addr) : known w -> m a = [q] -> target q = Some d -> m d = [o] -> target o = None ->
    a <> d -> o <> q -> f_inputs (form d) = inp ->
    exists w', xrun (S (S f)) w (XOp a (Assign v)) = Ok (w', RVal (conv (ty a) v)) /\ known w' /\
      (forall x, x <> a -> x <> d -> xvalue w' x = xvalue w x) /\
      xvalue w' a = conv (ty a) v /\
      exists evs, x_log w' = x_log w ++ evs /\
        given o evs = [value_of d (map (fun x => if Pos.eq_dec x a then conv (ty a) v else xvalue w x) inp)].
  Proof.
    intros K M Ht Md No Nad Noq Hin. pose proof (op_run (S f) w a (Assign v) K) as E. cbn [published bind] in E.
    rewrite M in E. cbn [tell] in E. rewrite (round_run (S f) _ q d a _ Ht) in E.
    set (w0 := updated w a (Assign v)) in *. set (n := conv (ty a) v) in *.
    pose proof (known_updated w a (Assign v) K) as K0. fold w0 in K0.
    pose proof (known_entry w0 a n [] q [] K0 M) as K1.
    set (w1 := entry a n w0 q) in *.
    set (w2 := reads w1 (f_inputs (form d))) in *.
    pose proof (known_reads (f_inputs (form d)) w1 K1) as K2. fold w2 in K2.
    assert (FV : fresh_value w0 d = f_of (form d) (map (fun x => if Pos.eq_dec x a then n else xvalue w x) inp)).
    { unfold fresh_value. rewrite Hin. f_equal. apply map_ext. intros x. unfold w0. rewrite xvalue_updated. reflexivity. }
    destruct (leaf_run f w2 d (Assign (fresh_value w0 d)) (conv (ty d) (fresh_value w0 d)) o K2 Md No eq_refl)
      as (w3 & E3 & K3 & V3 & ev3 & L3 & G3).
    rewrite E3 in E. cbn [bind] in E.
    assert (VV : forall x, xvalue w2 x = if Pos.eq_dec x a then n else xvalue w x).
    { intros x. unfold w2. rewrite xvalue_reads. change (xvalue w1 x) with (xvalue w0 x). unfold w0. apply xvalue_updated. }
    eexists. split; [exact E|]. split; [exact (known_run _ _ (XOp a (Assign v)) _ _ K Logic.I E)|].
    split; [|split].
    - intros x Na Nd. change (xvalue w3 x = xvalue w x). rewrite V3, xvalue_updated.
      destruct (Pos.eq_dec x d); [contradiction|]. rewrite VV. destruct (Pos.eq_dec x a); [contradiction|reflexivity].
    - change (xvalue w3 a = n). rewrite V3, xvalue_updated. destruct (Pos.eq_dec a d); [contradiction|].
      rewrite VV. destruct (Pos.eq_dec a a); congruence.
    - destruct (given_reads w1 (f_inputs (form d)) o) as (er & Lr & Gr). fold w2 in Lr.
      exists (XApplied a (Assign v) :: XStore a q n :: er ++ ev3 ++ [XRet (XOp a (Assign v)) (RVal n)]). split.
      + unfold xnote at 1. cbn [x_log]. rewrite L3, Lr. unfold w1, entry, xnote, xkeep, w0, updated, xnote, xplace. cbn [x_log].
        rewrite <- !app_assoc. reflexivity.
      + change (XApplied a (Assign v) :: XStore a q n :: er ++ ev3 ++ [XRet (XOp a (Assign v)) (RVal n)])
          with ([XApplied a (Assign v); XStore a q n] ++ er ++ ev3 ++ [XRet (XOp a (Assign v)) (RVal n)]).
        rewrite !given_app, Gr, G3. unfold given. cbn [flat_map app].
        destruct (Pos.eqb_spec q o) as [->|_]; [contradiction|]. cbn [app]. rewrite FV. reflexivity.
  Qed.

  Lemma diamond_run f w s a b d oa ob qa qb o v : known w ->
    m s = [oa; ob] -> m a = [qa] -> m b = [qb] -> m d = [o] ->
    target oa = Some a -> target ob = Some b -> target qa = Some d -> target qb = Some d -> target o = None ->
    f_inputs (form a) = [s] -> f_inputs (form b) = [s] -> f_inputs (form d) = [a; b] ->
    NoDup [s; a; b; d] ->
    let vs := conv (ty s) v in let va := value_of a [vs] in let vb := value_of b [vs] in
    exists w', xrun (S (S (S f))) w (XOp s (Assign v)) = Ok (w', RVal vs) /\
      exists evs, x_log w' = x_log w ++ evs /\
        given o evs = [value_of d [va; xvalue w b]; value_of d [va; vb]].
  Proof.
    intros K Ms Ma Mb Md Toa Tob Tqa Tqb To Ia Ib Id ND vs va vb.
    assert (NE : s <> a /\ s <> b /\ s <> d /\ a <> b /\ a <> d /\ b <> d).
    { inversion ND as [|? ? H1 H2]; subst. inversion H2 as [|? ? H3 H4]; subst. inversion H4 as [|? ? H5 H6]; subst.
      cbn [In] in H1, H3, H5. intuition congruence. }
    destruct NE as (Nsa & Nsb & Nsd & Nab & Nad & Nbd).
    assert (Noa : o <> oa) by congruence. assert (Nob : o <> ob) by congruence.
    assert (Nqa : o <> qa) by congruence. assert (Nqb : o <> qb) by congruence.
    pose proof (op_run (S (S f)) w s (Assign v) K) as E. cbn [published bind] in E. fold vs in E.
    rewrite Ms in E. cbn [tell] in E. rewrite (round_run (S (S f)) _ oa a s _ Toa) in E.
    set (w0 := updated w s (Assign v)) in *.
    pose proof (known_updated w s (Assign v) K) as K0. fold w0 in K0.
    assert (V0 : forall x, xvalue w0 x = if Pos.eq_dec x s then vs else xvalue w x) by (intros x; apply xvalue_updated).
    pose proof (known_entry w0 s vs [] oa [ob] K0 Ms) as K1.
    set (w1 := entry s vs w0 oa) in *.
    pose proof (known_reads (f_inputs (form a)) w1 K1) as K2.
    set (w2 := reads w1 (f_inputs (form a))) in *.
    assert (V2 : forall x, xvalue w2 x = xvalue w0 x) by (intros x; unfold w2; rewrite xvalue_reads; reflexivity).
    assert (FA : fresh_value w0 a = f_of (form a) [vs]).
    { unfold fresh_value. rewrite Ia. cbn [map]. rewrite V0. destruct (Pos.eq_dec s s); congruence. }
    destruct (side_run f w2 a d qa o (fresh_value w0 a) [a; b] K2 Ma Tqa Md To Nad Nqa Id)
      as (w3 & E3 & K3 & O3 & A3 & ev3 & L3 & G3).
    rewrite E3 in E. cbn [bind] in E.
    rewrite (round_run (S (S f)) _ ob b s _ Tob) in E.
    pose proof (known_entry w3 s vs [oa] ob [] K3 Ms) as K4.
    set (w4 := entry s vs w3 ob) in *.
    pose proof (known_reads (f_inputs (form b)) w4 K4) as K5.
    set (w5 := reads w4 (f_inputs (form b))) in *.
    assert (V5 : forall x, xvalue w5 x = xvalue w3 x) by (intros x; unfold w5; rewrite xvalue_reads; reflexivity).
    assert (FB : fresh_value w3 b = f_of (form b) [vs]).
    { unfold fresh_value. rewrite Ib. cbn [map]. rewrite O3, V2, V0 by assumption. destruct (Pos.eq_dec s s); congruence. }
    destruct (side_run f w5 b d qb o (fresh_value w3 b) [a; b] K5 Mb Tqb Md To Nbd Nqb Id)
      as (w6 & E6 & K6 & O6 & A6 & ev6 & L6 & G6).
    rewrite E6 in E. cbn [bind] in E.
    eexists. split; [exact E|].
    destruct (given_reads w1 (f_inputs (form a)) o) as (er1 & Lr1 & Gr1). fold w2 in Lr1.
    destruct (given_reads w4 (f_inputs (form b)) o) as (er4 & Lr4 & Gr4). fold w5 in Lr4.
    exists (XApplied s (Assign v) :: XStore s oa vs :: er1 ++ ev3 ++ XStore s ob vs :: er4 ++ ev6 ++ [XRet (XOp s (Assign v)) (RVal vs)]).
    split.
    - unfold xnote at 1. cbn [x_log]. rewrite L6, Lr4. unfold w4, entry, xnote, xkeep. cbn [x_log].
      rewrite L3, Lr1. unfold w1, entry, xnote, xkeep. cbn [x_log]. unfold w0, updated, xnote, xplace. cbn [x_log].
      rewrite <- !app_assoc. reflexivity.
    - match goal with |- given o ?l = _ =>
        change l with ([XApplied s (Assign v); XStore s oa vs] ++ er1 ++ ev3 ++ [XStore s ob vs] ++ er4 ++ ev6 ++ [XRet (XOp s (Assign v)) (RVal vs)])
      end.
      rewrite !given_app, Gr1, G3, Gr4, G6. unfold given. cbn [flat_map app].
      destruct (Pos.eqb_spec oa o) as [->|_]; [contradiction|]. destruct (Pos.eqb_spec ob o) as [->|_]; [contradiction|].
      cbn [app map]. rewrite !V5, A3, !V2, !V0.
      destruct (Pos.eq_dec a a) as [_|X]; [|contradiction]. destruct (Pos.eq_dec b a) as [X|_]; [congruence|].
      destruct (Pos.eq_dec a b) as [X|_]; [congruence|]. destruct (Pos.eq_dec b b) as [_|X]; [|contradiction].
      destruct (Pos.eq_dec b s) as [X|_]; [congruence|]. rewrite FA, FB. reflexivity.
  Qed.
End Derive.
