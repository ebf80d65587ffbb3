(** Passive histories, the dynamic value observable, threads. *)
From Verif Require Export ValuesProofs2.

(** ** histories with callbacks that do not use the observable *)
Section Histories.
  Variable t : ity.
  Variable Max : Z.
  Variable upd : list vev -> addr -> Z -> vbody.
  Variable disc : list vev -> addr -> vbody.
  Hypothesis T : ity_ok t.
  Hypothesis P1 : passive upd.
  Hypothesis P2 : passive_disc disc.

  Lemma history_value f calls : forall w w' x, vinv t Max w -> v_val w = conv t x ->
    vrun_all t Max upd disc f w calls = Ok w' ->
    v_val w' = conv t (fold_left call_math calls x).
  Proof.
    induction calls as [|c calls IH]; intros w w' x I V E; cbn [vrun_all fold_left] in *.
    - inversion E; subst. exact V.
    - destruct (vrun t Max upd disc f w c) as [[w1 r]| |] eqn:E1; cbn [bind] in E; try discriminate.
      pose proof (vrun_ext t Max T upd disc f w c w1 r I E1) as X.
      apply (IH w1); [apply X| |exact E].
      destruct (passive_run t Max upd disc P1 P2 f w c w1 r I E1) as (_ & _ & H).
      destruct c as [o|o| |n|o]; cbn [call_math]; destruct H as [H _]; rewrite H; try exact V.
      rewrite V. apply apply_conv. exact T.
  Qed.

  (** Not registered and not added again: no delivery, the observed keeps what it holds. *)
  Lemma stays_out f calls o : forall w w', vinv t Max w -> ~ In o (vmembers (v_log w)) ->
    ~ In (VAdd o) calls -> vrun_all t Max upd disc f w calls = Ok w' ->
    v_mirror w' o = v_mirror w o /\ ~ In o (vmembers (v_log w')) /\
    exists evs, v_log w' = v_log w ++ evs /\ forall n, ~ In (Store o n) evs.
  Proof.
    induction calls as [|c calls IH]; intros w w' I NI NA E; cbn [vrun_all] in E.
    - inversion E; subst. split; [reflexivity|]. split; [exact NI|]. exists []. rewrite app_nil_r. split; [reflexivity|tauto].
    - destruct (vrun t Max upd disc f w c) as [[w1 r]| |] eqn:E1; cbn [bind] in E; try discriminate.
      pose proof (vrun_ext t Max T upd disc f w c w1 r I E1) as X.
      destruct (passive_run t Max upd disc P1 P2 f w c w1 r I E1) as (HL & HM & _).
      assert (HS : forall n, ~ In (Store o n) (effect t w c r ++ [VRet c r])).
      { intros n HIn. rewrite in_app_iff in HIn. destruct HIn as [HIn|[HIn|[]]]; [|discriminate].
        destruct c as [x|x| |k|x], r as [e|z|]; cbn [effect] in HIn; try destruct HIn as [HIn|HIn]; try discriminate;
        try destruct HIn;
        apply in_map_iff in HIn; destruct HIn as (y & Hy & HIn); inversion Hy; subst; contradiction. }
      assert (HN : ~ In o (vmembers (v_log w1))).
      { rewrite HL, app_assoc. rewrite vmembers_snoc.
        assert (Q : vmembers (v_log w ++ effect t w c r) = vmembers (v_log w)).
        { unfold vmembers at 1. rewrite fold_left_app. fold (vmembers (v_log w)).
          assert (Q' : forall l evs, (forall e, In e evs -> vmember_step l e = l) -> fold_left vmember_step evs l = l).
          { intros l evs. induction evs as [|e evs IHe]; intros H; cbn; [reflexivity|].
            rewrite H by (left; reflexivity). apply IHe. intros e' He'. apply H. right. exact He'. }
          apply Q'. intros e He.
          destruct c as [x|x| |k|x], r as [e0|z|]; cbn [effect] in He; try destruct He as [He|He]; try destruct He;
          try (subst e; reflexivity);
          try (apply in_map_iff in He; destruct He as (y & <- & _); reflexivity). reflexivity. }
        rewrite Q. destruct c as [x|x| |k|x], r as [[]|z|]; cbn [vmember_step]; try exact NI; try tauto.
        - rewrite in_app_iff. intros [H|[H|[]]]; [contradiction|]. subst x. apply NA. left. reflexivity.
        - intros H. apply in_remove in H. tauto. }
      destruct (IH w1 w' (ve_inv _ _ _ _ X) HN ltac:(intros H; apply NA; right; exact H) E) as (A & B & evs & C & D).
      split; [|split; [exact B|]].
      + rewrite A, HM. destruct c as [x|x| |k|x], r as [e0|z|]; cbn [mirror_after]; try reflexivity;
          apply store_all_out; exact NI.
      + exists ((effect t w c r ++ [VRet c r]) ++ evs).
        split; [rewrite C, HL, <- !app_assoc; reflexivity|].
        intros n HIn. rewrite in_app_iff in HIn. destruct HIn as [HIn|HIn]; [exact (HS n HIn)|exact (D n HIn)].
  Qed.
End Histories.

(** ** std::remove on the vector of the dynamic class, exactly *)
Lemma compact_exact rest : forall done g o, g <> [] ->
  compact (map Some (done ++ g ++ rest)) (length done) (length done + length g) (length rest) o
  = Ok (map Some (done ++ remove Pos.eq_dec o rest ++
                  skipn (length (remove Pos.eq_dec o rest)) (g ++ rest)),
        (length done + length (remove Pos.eq_dec o rest))%nat).
Proof.
  induction rest as [|x rest IH]; intros done g o Hg.
  - cbn [remove length compact app skipn]. rewrite Nat.add_0_r. reflexivity.
  - cbn [length compact].
    assert (HSl : slot (map Some (done ++ g ++ x :: rest)) (length done + length g) = Ok (Some x)).
    { rewrite app_assoc, map_app, <- app_length, <- (map_length (@Some positive) (done ++ g)).
      cbn [map]. apply slot_app. }
    rewrite HSl. cbn [bind points_to].
    destruct (Pos.eqb_spec x o) as [E|N].
    + subst x. rewrite remove_cons.
      specialize (IH done (g ++ [o]) o ltac:(intros H; destruct g; discriminate)).
      rewrite app_length in IH. cbn [length] in IH. rewrite <- !app_assoc in IH. cbn [app] in IH.
      replace (S (length done + length g)) with (length done + (length g + 1))%nat by lia. exact IH.
    + destruct g as [|g0 g]; [congruence|].
      assert (HPut : put_slot (map Some (done ++ (g0 :: g) ++ x :: rest)) (length done) (Some x)
                     = Ok (map Some ((done ++ [x]) ++ (g ++ [x]) ++ rest))).
      { rewrite <- (map_length (@Some positive) done), <- !app_assoc. cbn [app].
        rewrite !map_app. cbn [map]. rewrite put_app, map_app. reflexivity. }
      rewrite HPut. cbn [bind].
      specialize (IH (done ++ [x]) (g ++ [x]) o ltac:(intros H; destruct g; discriminate)).
      rewrite !app_length in IH. cbn [length] in IH.
      replace (length done + 1)%nat with (S (length done)) in IH by lia.
      replace (S (length done) + (length g + 1))%nat with (S (length done + length (g0 :: g))) in IH by (cbn; lia).
      rewrite IH. cbn [remove]. destruct (Pos.eq_dec o x) as [E|_]; [congruence|]. cbn [length].
      f_equal. f_equal; [|lia]. f_equal. rewrite <- !app_assoc. cbn [app skipn]. reflexivity.
Qed.

Lemma remove_exact l o :
  std_remove (map Some l) (length l) o
  = Ok (map Some (remove Pos.eq_dec o l ++ skipn (length (remove Pos.eq_dec o l)) l),
        length (remove Pos.eq_dec o l)).
Proof.
  unfold std_remove.
  destruct (find_spec l [] [] o) as [[H1 H2]|(l1 & l2 & H1 & H2 & H3)]; cbn [app length Nat.add] in *;
    rewrite app_nil_r in *.
  - rewrite H2. cbn [bind]. rewrite Nat.eqb_refl, (remove_notin o l) by exact H1.
    rewrite skipn_all, app_nil_r. reflexivity.
  - rewrite H3. cbn [bind]. subst l. rewrite app_length. cbn [length].
    replace (length l1 =? length l1 + S (length l2))%nat with false by lia.
    pose proof (compact_exact l2 l1 [o] o ltac:(discriminate)) as C. cbn [length app] in C.
    replace (length l1 + S (length l2) - S (length l1))%nat with (length l2) by lia.
    replace (S (length l1)) with (length l1 + 1)%nat by lia. rewrite C.
    rewrite remove_app, remove_cons, (remove_notin o l1) by exact H2. rewrite app_length.
    rewrite skipn_app, (skipn_all2 l1) by lia. cbn [app].
    replace (length l1 + length (remove Pos.eq_dec o l2) - length l1)%nat
      with (length (remove Pos.eq_dec o l2)) by lia.
    rewrite <- app_assoc. reflexivity.
Qed.

Lemma unwrap_map l : unwrap (map Some l) = Ok l.
Proof. induction l as [|x l IH]; cbn; [reflexivity|]. rewrite IH. reflexivity. Qed.

(** What the dynamic class's remove leaves registered. *)
Definition left_over (o : addr) (l : list addr) : list addr :=
  remove Pos.eq_dec o l ++ skipn (length (remove Pos.eq_dec o l)) l.

Lemma left_over_length o l : length (left_over o l) = length l.
Proof.
  unfold left_over. rewrite app_length, skipn_length.
  pose proof (remove_length_le Pos.eq_dec l o). lia.
Qed.

Lemma skipn_last (l : list addr) d : l <> [] -> skipn (length l - 1) l = [last l d].
Proof.
  intros H. destruct (exists_last H) as (l' & x & ->). rewrite last_last, app_length. cbn [length].
  replace (length l' + 1 - 1)%nat with (length l') by lia.
  rewrite skipn_app, skipn_all, Nat.sub_diag. reflexivity.
Qed.

Lemma remove_nodup_length o l : NoDup l -> In o l -> (length (remove Pos.eq_dec o l) = length l - 1)%nat.
Proof.
  induction l as [|x l IH]; intros ND HI; [destruct HI|]. inversion ND; subst. cbn [remove].
  destruct (Pos.eq_dec o x) as [E|N].
  - subst x. rewrite remove_notin by assumption. cbn. lia.
  - destruct HI as [HI|HI]; [congruence|]. cbn [length]. rewrite IH by assumption.
    destruct l; [destruct HI|]. cbn. lia.
Qed.

Lemma left_over_nodup o l d : NoDup l -> In o l -> left_over o l = remove Pos.eq_dec o l ++ [last l d].
Proof.
  intros ND HI. unfold left_over. rewrite remove_nodup_length by assumption.
  rewrite (skipn_last l d); [reflexivity|]. destruct l; [destruct HI|discriminate].
Qed.

Lemma left_over_last o l : NoDup (l ++ [o]) -> left_over o (l ++ [o]) = l ++ [o].
Proof.
  intros ND. rewrite (left_over_nodup o (l ++ [o]) o ND) by (rewrite in_app_iff; right; left; reflexivity).
  rewrite last_last, remove_app. cbn [remove]. destruct (Pos.eq_dec o o); [|congruence].
  rewrite app_nil_r, remove_notin; [reflexivity|].
  apply NoDup_remove_2 in ND. rewrite app_nil_r in ND. exact ND.
Qed.

(** ** threads *)
Definition todo (l : list thread) : Z := sum (map (fun th => sum (map increment (th_prog th))) l).

Lemma todo_set l : forall i th x, nth_error l i = Some th ->
  todo (set_thread l i x) = todo l - sum (map increment (th_prog th)) + sum (map increment (th_prog x)).
Proof.
  unfold todo. induction l as [|y l IH]; intros [|i] th x H; cbn in *; try discriminate.
  - inversion H; subst. lia.
  - rewrite (IH i th x H). lia.
Qed.

Lemma set_thread_in l : forall i x y, In y (set_thread l i x) -> y = x \/ In y l.
Proof.
  induction l as [|z l IH]; intros [|i] x y H; cbn in *; try tauto.
  - destruct H; [left; congruence|tauto].
  - destruct H as [H|H]; [tauto|]. destruct (IH _ _ _ H); tauto.
Qed.

Definition rmw_threads (l : list thread) : Prop := forall th o, In th l -> In o (th_prog th) -> is_rmw o.

Lemma math_rmw o x : is_rmw o -> math x o = x + increment o.
Proof. destruct o; cbn; try tauto; lia. Qed.

Lemma cstep_total t obs w i w' : ity_ok t -> rmw_threads (c_threads w) -> in_ity t (c_val w) ->
  cstep t obs w i = Ok w' ->
  rmw_threads (c_threads w') /\ in_ity t (c_val w') /\
  conv t (c_val w' + todo (c_threads w')) = conv t (c_val w + todo (c_threads w)).
Proof.
  intros T R V E. unfold cstep in E.
  destruct (nth_error (c_threads w) i) as [th|] eqn:N; [|inversion E; subst; tauto].
  assert (HIn : In th (c_threads w)) by (eapply nth_error_In; exact N).
  destruct (th_pending th) as [|[o n] rest] eqn:EP.
  - destruct (th_prog th) as [|op rest] eqn:ER; [inversion E; subst; tauto|].
    destruct (published t (c_val w) op) as [p| |]; cbn [bind] in E; try discriminate.
    inversion E; subst w'. cbn [c_threads c_val].
    assert (HR : is_rmw op) by (apply (R th op HIn); rewrite ER; left; reflexivity).
    rewrite (todo_set _ _ th _ N), ER. cbn [th_prog map sum]. rewrite apply_math, (math_rmw op) by assumption.
    split; [|split].
    + intros x y Hx Hy. destruct (set_thread_in _ _ _ _ Hx) as [->|Hx'].
      * apply (R th y HIn). rewrite ER. right. exact Hy.
      * exact (R x y Hx' Hy).
    + apply conv_range. exact T.
    + rewrite conv_add_l by exact T. f_equal. lia.
  - inversion E; subst w'. cbn [c_threads c_val]. rewrite (todo_set _ _ th _ N). cbn [th_prog].
    split; [|split; [exact V|f_equal; lia]].
    intros x y Hx Hy. destruct (set_thread_in _ _ _ _ Hx) as [->|Hx'].
    + exact (R th y HIn Hy).
    + exact (R x y Hx' Hy).
Qed.

Lemma crun_total t obs s : forall w w', ity_ok t -> rmw_threads (c_threads w) -> in_ity t (c_val w) ->
  crun t obs w s = Ok w' ->
  in_ity t (c_val w') /\ conv t (c_val w' + todo (c_threads w')) = conv t (c_val w + todo (c_threads w)).
Proof.
  induction s as [|i s IH]; intros w w' T R V E; cbn [crun] in E.
  - inversion E; subst. tauto.
  - destruct (cstep t obs w i) as [w1| |] eqn:E1; cbn [bind] in E; try discriminate.
    destruct (cstep_total t obs w i w1 T R V E1) as (A & B & C).
    destruct (IH w1 w' T A B E) as (D & F). split; [exact D|]. rewrite F. exact C.
Qed.

Lemma todo_finished l : (forall th, In th l -> th_prog th = [] /\ th_pending th = []) -> todo l = 0.
Proof.
  unfold todo. induction l as [|th l IH]; intros H; cbn; [reflexivity|].
  destruct (H th (or_introl eq_refl)) as [-> _]. rewrite IH by (intros x Hx; apply H; right; exact Hx). reflexivity.
Qed.

Lemma todo_start progs : todo (map (fun p => Thread p []) progs) = sum (map (fun p => sum (map increment p)) progs).
Proof. unfold todo. rewrite map_map. reflexivity. Qed.

(** An observed holds what it started with or something published. *)
Definition from_published (m : addr -> Z) (w : cworld) : Prop :=
  (forall o, c_mirror w o = m o \/ In (c_mirror w o) (c_published w)) /\
  (forall th o n, In th (c_threads w) -> In (o, n) (th_pending th) -> In n (c_published w)).

Lemma cstep_published t obs m w i w' : from_published m w -> cstep t obs w i = Ok w' -> from_published m w'.
Proof.
  intros [A B] E. unfold cstep in E.
  destruct (nth_error (c_threads w) i) as [th|] eqn:N; [|inversion E; subst; split; assumption].
  assert (HIn : In th (c_threads w)) by (eapply nth_error_In; exact N).
  destruct (th_pending th) as [|[o n] rest] eqn:EP.
  - destruct (th_prog th) as [|op rest] eqn:ER; [inversion E; subst; split; assumption|].
    destruct (published t (c_val w) op) as [p| |]; cbn [bind] in E; try discriminate.
    inversion E; subst w'. split; cbn [c_mirror c_threads c_published].
    + intros o. rewrite in_app_iff. destruct (A o); tauto.
    + intros x o n Hx Hn. rewrite in_app_iff. destruct (set_thread_in _ _ _ _ Hx) as [->|Hx'].
      * cbn [th_pending] in Hn. apply in_map_iff in Hn. destruct Hn as (y & Hy & _). inversion Hy; subst.
        right. left. reflexivity.
      * left. eapply B; eassumption.
  - inversion E; subst w'. split; cbn [c_mirror c_threads c_published].
    + intros x. unfold set_mirror. destruct (Pos.eqb x o); [|apply A].
      right. apply (B th o n HIn). rewrite EP. left. reflexivity.
    + intros x y k Hx Hn. destruct (set_thread_in _ _ _ _ Hx) as [->|Hx'].
      * cbn [th_pending] in Hn. apply (B th y k HIn). rewrite EP. right. exact Hn.
      * eapply B; eassumption.
Qed.

Lemma crun_published t obs m s : forall w w', from_published m w -> crun t obs w s = Ok w' -> from_published m w'.
Proof.
  induction s as [|i s IH]; intros w w' A E; cbn [crun] in E.
  - inversion E; subst. exact A.
  - destruct (cstep t obs w i) as [w1| |] eqn:E1; cbn [bind] in E; try discriminate.
    eapply IH; [eapply cstep_published; eassumption|exact E].
Qed.

Lemma start_published v m progs : from_published m (cstart v m progs).
Proof.
  split; cbn [cstart c_mirror c_threads c_published].
  - tauto.
  - intros th o n H. apply in_map_iff in H. destruct H as (p & <- & _). intros [].
Qed.

(** One writer: the observeds follow. *)
Definition follows (obs : list addr) (prog : list vop) (w : cworld) : Prop :=
  exists rest todo, c_threads w = [Thread rest (map (fun o => (o, c_val w)) todo)] /\
    (forall o, In o rest -> faithful_op o = true) /\
    (rest = prog \/ exists done, obs = done ++ todo /\ forall o, In o done -> c_mirror w o = c_val w).

Lemma cstep_follows t obs prog w i w' : ity_ok t -> follows obs prog w -> cstep t obs w i = Ok w' -> follows obs prog w'.
Proof.
  intros T (rest & todo & HT & HF & HC) E. unfold cstep in E. rewrite HT in E.
  destruct i as [|i]; cbn [nth_error] in E.
  2:{ replace (nth_error (@nil thread) i) with (@None thread) in E by (destruct i; reflexivity).
      inversion E; subst. exists rest, todo. tauto. }
  cbn [th_pending th_prog] in E. destruct todo as [|o todo]; cbn [map] in E.
  - destruct rest as [|op rest]; [inversion E; subst; exists [], []; tauto|].
    destruct (published t (c_val w) op) as [p| |] eqn:EP; cbn [bind] in E; try discriminate.
    assert (Hp : p = apply_atomic t (c_val w) op).
    { eapply published_faithful; [exact T|apply HF; left; reflexivity|exact EP]. }
    inversion E; subst w'. clear E. exists rest, obs. cbn [c_threads c_val c_mirror set_thread]. rewrite <- Hp.
    split; [reflexivity|]. split; [intros x Hx; apply HF; right; exact Hx|].
    right. exists []. split; [reflexivity|]. intros x [].
  - inversion E; subst w'. clear E. exists rest, todo. cbn [c_threads c_val c_mirror set_thread].
    split; [reflexivity|]. split; [exact HF|]. destruct HC as [HC|(done & HO & HM)]; [left; exact HC|].
    right. exists (done ++ [o]). split; [rewrite <- app_assoc; exact HO|].
    intros x Hx. unfold set_mirror. destruct (Pos.eqb_spec x o) as [->|N]; [reflexivity|].
    rewrite in_app_iff in Hx. destruct Hx as [Hx|[Hx|[]]]; [apply HM, Hx|congruence].
Qed.

Lemma crun_follows t obs prog s : ity_ok t -> forall w w', follows obs prog w -> crun t obs w s = Ok w' -> follows obs prog w'.
Proof.
  intros T. induction s as [|i s IH]; intros w w' A E; cbn [crun] in E.
  - inversion E; subst. exact A.
  - destruct (cstep t obs w i) as [w1| |] eqn:E1; cbn [bind] in E; try discriminate.
    eapply IH; [eapply cstep_follows; eassumption|exact E].
Qed.
