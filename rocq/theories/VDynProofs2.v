(** Interleavings of two calls of the dynamic value observable. *)
From Verif Require Export VDynProofs.

Section Two.
  Variable t : ity.
  Notation goes := (goes t).
  Notation drun := (drun t).
  Notation prog := (d_prog t).
  Notation idle_u := (fun _ _ _ => VReturn).
  Notation idle_d := (fun _ _ => VReturn).

  Lemma publish x op : ity_ok t -> ~ overflows t x op -> exists p, published t x op = Ok p /\ publishes t x op p.
  Proof.
    intros T N. destruct (published_ub t x op) as [U F]. destruct (published t x op) as [p| |] eqn:E; [|destruct N; apply U; reflexivity|congruence].
    exists p. split; [reflexivity|]. destruct op; cbn [publishes];
      first [apply published_predec; assumption
            |rewrite <- apply_math by exact T; eapply published_faithful; [exact T| |exact E]; reflexivity
            |cbn in E; injection E as <-; reflexivity].
  Qed.
  Lemma before_app {A} (p q : list A) a b : In a p -> In b q -> before (p ++ q) a b.
  Proof.
    intros HA HB. apply in_split in HA. destruct HA as (p1 & p2 & ->). apply in_split in HB. destruct HB as (q1 & q2 & ->).
    exists p1, (p2 ++ q1), q2. rewrite <- !app_assoc. reflexivity.
  Qed.

  Lemma alone_all i rest : forall calls w l room n lg w1,
    holds (d_mem w) l room -> d_thr w i = prog (calls ++ rest) ->
    dcrun_all t idle_u idle_d 1 (DVC (d_val (d_mem w)) l n (d_mirror (d_mem w)) lg) calls = Ok w1 ->
    exists k w' room' es, drun w (repeat i k) = Ok w' /\ holds (d_mem w') (dc_obs w1) room' /\
      d_val (d_mem w') = dc_val w1 /\ d_mirror (d_mem w') = dc_mirror w1 /\ d_thr w' i = prog rest /\
      (forall j, j <> i -> d_thr w' j = d_thr w j) /\ d_log w' = d_log w ++ map (pair i) es /\ dc_log w1 = lg ++ es.
  Proof.
    induction calls as [|c calls IH]; intros w l room n lg w1 H E R; cbn [dcrun_all] in R.
    - injection R as <-. exists O, w, room, []. cbn. rewrite !app_nil_r. auto 8.
    - destruct (dcrun t idle_u idle_d 1 _ c) as [[wc r]| |] eqn:EC; cbn [bind] in R; try discriminate.
      assert (F : fits t (d_val (d_mem w)) c).
      { destruct c as [| | | |o]; try exact Logic.I. intros X. apply published_ub in X. cbn [dcrun dc_val] in EC. rewrite X in EC. discriminate. }
      apply holds_vec in H. destruct H as (b & tl & LT & V).
      destruct (call_goes t (d_mem w) b l tl c (prog (calls ++ rest)) n lg V F) as (m' & b' & tl' & wc' & r' & es & G & EC' & V' & E1 & E2 & E3).
      rewrite EC in EC'. injection EC' as <- <-.
      destruct (goes_sched t _ _ _ _ _ i G w eq_refl E) as (k & w2 & R2 & [A1 A2 A3 A4]).
      destruct wc as [wv wo wn wm wl]. cbn [dc_val dc_obs dc_mirror dc_log] in *. subst wl.
      assert (H2 : holds (d_mem w2) wo (length tl')) by (apply holds_vec; rewrite A1; eauto).
      destruct (IH w2 wo (length tl') wn (lg ++ es) w1 H2 A2) as (k' & w' & room' & es' & R' & H' & V1 & M1 & T1 & O1 & L1 & L2).
      { rewrite A1, E1, E2. exact R. }
      exists (k + k')%nat, w', room', (es ++ es'). split; [rewrite repeat_app, (drun_app t _ _ _ _ R2); exact R'|].
      split; [exact H'|]. split; [exact V1|]. split; [exact M1|]. split; [exact T1|].
      split; [intros j N; rewrite O1, A3 by exact N; reflexivity|].
      split; [rewrite L1, A4, map_app, app_assoc; reflexivity|]. rewrite L2, app_assoc. reflexivity.
  Qed.

  (** [i] gets to [da], [j] makes its whole call, [i]'s next step is undefined. *)
  Lemma cut_bad m a b i j m1 da ea m2 eb : i <> j ->
    goes m (prog [a]) ea m1 da -> goes m1 (prog [b]) eb m2 DStop -> dstep t m2 da = UB ->
    exists s, drun (dstarted t m (two i j a b)) s = UB.
  Proof.
    intros N H1 H2 U. destruct (cut t m a b i j m1 da ea m2 DStop eb m2 da [] m2 DStop [] N H1 H2) as (s & w & R & EM & TI & _); [constructor|constructor|].
    exists (s ++ [i]). rewrite (drun_app t _ _ _ _ R). cbn [VDynModel.drun]. unfold dmove. rewrite EM, TI, U. reflexivity.
  Qed.

  (** A whole registration of a new observed. *)
  Lemma add_full m b l o k : vec m b l [] -> ~ In o l -> b <> 0%nat ->
    exists m', goes m (d_call t (VAdd o) k) [VRet (VAdd o) (RErr ok)] m' k /\ nth_error (d_heap m') b = Some None.
  Proof.
    intros V N NZ. destruct (grow_goes t m b l o (DOut (VAdd o) (RErr ok) k) V) as (m' & b' & G & _ & _ & _ & HF & _). exists m'. split; [|auto].
    cbn [d_call]. eapply goes_trans0; [apply (add_to_push t m b l [] o _ V N)|]. eapply goes_trans0; [apply (push_full t m b l o _ V)|].
    eapply goes_trans0; [exact G|]. apply goes_one. reflexivity.
  Qed.
  Lemma array_gone m b : nth_error (d_heap m) b = Some None -> d_array m b = UB.
  Proof. unfold d_array. intros ->. reflexivity. Qed.
  (** An operator up to its first observed. *)
  Lemma op_to_tell m b l tl op p k : vec m b l tl -> published t (d_val m) op = Ok p ->
    goes m (d_call t (VOp op) k) [Applied op] (mval m (apply_atomic t (d_val m) op) (d_mirror m)) (d_tell p b 0 (length l) (DOut (VOp op) (RVal p) k)).
  Proof.
    intros V E. cbn [d_call]. rewrite <- (app_nil_r [Applied op]). eapply goes_on; [reflexivity|]. rewrite E. unfold d_notify.
    exact (range_goes t (mval m (apply_atomic t (d_val m) op) (d_mirror m)) b (length l) (fun b n => d_tell p b 0 n (DOut (VOp op) (RVal p) k)) (vc_start _ _ _ _ V) (vc_fin _ _ _ _ V)).
  Qed.

  Lemma freed_read m l i j op p o : holds m l 0 -> i <> j -> l <> [] -> ~ In o l -> published t (d_val m) op = Ok p ->
    exists s, drun (dstarted t m (two i j (VOp op) (VAdd o))) s = UB.
  Proof.
    intros H N NE NI E. apply holds_vec in H. destruct H as (b & tl & LT & V). apply length_zero_iff_nil in LT. subst tl.
    assert (NZ : b <> 0%nat) by (destruct (vc_null _ _ _ _ V) as [X|X]; [destruct l; [congruence|discriminate]|exact X]).
    destruct (add_full _ b l o DStop (vec_val m b l [] (apply_atomic t (d_val m) op) (d_mirror m) V) NI NZ) as (m' & G & HF).
    eapply (cut_bad m (VOp op) (VAdd o) i j); [exact N|apply (op_to_tell m b l [] op p DStop V E)|exact G|].
    destruct l as [|x l]; [congruence|]. cbn. rewrite (array_gone _ _ HF). reflexivity.
  Qed.
  Lemma vec_more m b l tl a : vec m b l tl -> vec (with_heap m (d_heap m ++ [a])) b l tl.
  Proof.
    intros [H1 H2 H3 H4 H5]. split; try assumption. cbn [with_heap d_heap]. rewrite nth_error_app1; [exact H2|].
    apply nth_error_Some. rewrite H2. discriminate.
  Qed.
  Lemma freed_twice m l i j o1 o2 : holds m l 0 -> i <> j -> l <> [] -> ~ In o1 l -> ~ In o2 l ->
    exists s, drun (dstarted t m (two i j (VAdd o1) (VAdd o2))) s = UB.
  Proof.
    intros H N NE N1 N2. apply holds_vec in H. destruct H as (b & tl & LT & V). apply length_zero_iff_nil in LT. subst tl.
    assert (NZ : b <> 0%nat) by (destruct (vc_null _ _ _ _ V) as [X|X]; [destruct l; [congruence|discriminate]|exact X]).
    destruct (add_full _ b l o2 DStop (vec_more m b l [] (Some (grown l o1 (Nat.max (length l) 1 - 1))) V) N2 NZ) as (m' & G & HF).
    eapply (cut_bad m (VAdd o1) (VAdd o2) i j); [exact N| |exact G|].
    - cbn [d_prog fold_right d_call]. eapply goes_trans0; [apply (add_to_push t m b l [] o1 _ V N1)|]. eapply goes_trans0; [apply (push_full t m b l o1 _ V)|].
      apply (grow_to_free t m b l o1 _ V).
    - cbn. rewrite (array_gone _ _ HF). reflexivity.
  Qed.
  (** A call that has read begin() and not yet end(). *)
  Lemma to_mid m b l c : vec m b l [] -> fits t (d_val m) c -> (l = [] -> forall o, c <> VRemove o) ->
    exists x es k, goes m (prog [c]) es (mval m x (d_mirror m)) (DFin (fun e => if (fst e =? b)%nat then k e else DBad)).
  Proof.
    intros V F NR. assert (M : mval m (d_val m) (d_mirror m) = m) by (destruct m; reflexivity). pose proof (vc_start _ _ _ _ V) as VS.
    destruct c as [o|o| |v|op].
    - exists (d_val m), []. eexists. rewrite M. apply goes_one. cbn. rewrite VS. reflexivity.
    - destruct l as [|y l]; [destruct (NR eq_refl o); reflexivity|].
      exists (d_val m), []. eexists. rewrite M. cbn [d_prog fold_right d_call]. unfold d_remove. do 2 (eapply goes_step; [reflexivity|]).
      rewrite VS, (vc_fin _ _ _ _ V), deq_snd. cbn [length Nat.eqb].
      apply goes_one. cbn. rewrite VS. reflexivity.
    - exists (d_val m), []. eexists. rewrite M. apply goes_one. cbn. rewrite VS. reflexivity.
    - exists (d_val m), []. eexists. rewrite M. apply goes_one. cbn. rewrite VS. reflexivity.
    - cbn [fits] in F. destruct (published_ub t (d_val m) op) as [U FU]. destruct (published t (d_val m) op) as [p| |] eqn:EP;
        [|destruct F; apply U; reflexivity|congruence].
      exists (apply_atomic t (d_val m) op), [Applied op]. eexists. rewrite <- (app_nil_r [Applied op]). eapply goes_on; [reflexivity|]. rewrite EP.
      apply goes_one. unfold mval. cbn. rewrite VS. reflexivity.
  Qed.
  Lemma grown_during m l i j c o : holds m l 0 -> i <> j -> ~ In o l -> fits t (d_val m) c -> (l = [] -> forall x, c <> VRemove x) ->
    exists s, drun (dstarted t m (two i j c (VAdd o))) s = UB.
  Proof.
    intros H N NI F NR. apply holds_vec in H. destruct H as (b & tl & LT & V). apply length_zero_iff_nil in LT. subst tl.
    destruct (to_mid m b l c V F NR) as (x & es & k & G). pose proof (vec_val m b l [] x (d_mirror m) V) as V1.
    destruct (grow_goes t _ b l o (DOut (VAdd o) (RErr ok) DStop) V1) as (m' & b' & G' & V' & _ & _ & _ & NB).
    destruct (cut t m c (VAdd o) i j _ _ es m' DStop [VRet (VAdd o) (RErr ok)] m' DBad [] m' DStop [] N G) as (s & w & R & EM & TI & _).
    - cbn [d_prog fold_right d_call]. eapply goes_trans0; [apply (add_to_push t _ b l [] o _ V1 NI)|]. eapply goes_trans0; [apply (push_full t _ b l o _ V1)|].
      eapply goes_trans0; [exact G'|]. apply goes_one. reflexivity.
    - apply goes_one. cbn [VDynModel.dstep]. rewrite (vc_fin _ _ _ _ V'). cbn [fst]. destruct (Nat.eqb_spec b' b); [congruence|]. reflexivity.
    - constructor.
    - exists (s ++ [i]). rewrite (drun_app t _ _ _ _ R). cbn [VDynModel.drun]. unfold dmove. rewrite EM, TI. reflexivity.
  Qed.
  Lemma vec_cell m b l x y tl : vec m b l (x :: tl) -> vec (with_heap m (d_store (d_heap m) b (Some (map Some (l ++ [y]) ++ tl)))) b l (Some y :: tl).
  Proof.
    intros [H1 H2 H3 H4 H5]. split; try assumption. cbn [with_heap d_heap]. rewrite (store_same _ _ _ _ H2), map_app, <- app_assoc. reflexivity.
  Qed.
  Lemma lost_add m l room i j o1 o2 : holds m l (S room) -> i <> j -> ~ In o1 l -> ~ In o2 l ->
    exists s w, drun (dstarted t m (two i j (VAdd o1) (VAdd o2))) s = Ok w /\ all_done w /\
      d_log w = [(j, VRet (VAdd o2) (RErr ok)); (i, VRet (VAdd o1) (RErr ok))] /\ holds (d_mem w) (l ++ [o2]) room.
  Proof.
    intros H N N1 N2. apply holds_vec in H. destruct H as (b & tl & LT & V). destruct tl as [|x tl]; [discriminate|]. injection LT as LT.
    set (m1 := with_heap m (d_store (d_heap m) b (Some (map Some (l ++ [o1]) ++ tl)))).
    pose proof (vec_cell m b l x o1 tl V) as V1. fold m1 in V1.
    set (m2 := with_heap m1 (d_store (d_heap m1) b (Some (map Some (l ++ [o2]) ++ tl)))).
    set (m3 := DM (d_val m1) (d_start m1) (b, S (length l)) (d_end m1) (d_store (d_heap m1) b (Some (map Some (l ++ [o2]) ++ tl))) (d_mirror m1)).
    assert (V3 : vec m3 b (l ++ [o2]) tl) by exact (vec_end m1 b l o2 (Some o1) tl V1).
    destruct (cut t m (VAdd o1) (VAdd o2) i j m1 (DSetFin (b, S (length l)) (DOut (VAdd o1) (RErr ok) DStop)) []
                m3 DStop [VRet (VAdd o2) (RErr ok)] m3 DStop [VRet (VAdd o1) (RErr ok)] m3 DStop [] N) as (s & w & R & EM & TI & TJ & TK & EL).
    - cbn [d_prog fold_right d_call]. eapply goes_trans0; [apply (add_to_push t m b l _ o1 _ V N1)|]. apply (push_room t m b l x tl o1 _ V).
    - cbn [d_prog fold_right d_call]. eapply goes_trans0; [apply (add_to_push t m1 b l _ o2 _ V1 N2)|].
      eapply goes_trans0; [apply (push_room t m1 b l (Some o1) tl o2 _ V1)|]. eapply goes_step; [reflexivity|]. apply goes_one. reflexivity.
    - eapply goes_step; [reflexivity|]. apply goes_one. reflexivity.
    - constructor.
    - exists s, w. split; [exact R|]. split; [apply (cut_done i j); assumption|]. split; [rewrite EL; reflexivity|].
      rewrite EM. apply holds_vec. eauto.
  Qed.
  Lemma told_cleared m l room i j op p : holds m l room -> i <> j -> published t (d_val m) op = Ok p ->
    exists s w, drun (dstarted t m (two i j (VOp op) VClear)) s = Ok w /\ all_done w /\
      d_log w = (i, Applied op) :: map (pair j) (map VDisc l ++ [VRet VClear RUnit]) ++ map (pair i) (map (fun o => Store o p) l ++ [VRet (VOp op) (RVal p)]).
  Proof.
    intros H N E. apply holds_vec in H. destruct H as (b & tl & LT & V).
    set (m1 := mval m (apply_atomic t (d_val m) op) (d_mirror m)).
    pose proof (vec_val m b l tl (apply_atomic t (d_val m) op) (d_mirror m) V) as V1. fold m1 in V1.
    set (m2 := DM (d_val m1) (d_start m1) (b, 0%nat) (d_end m1) (d_heap m1) (d_mirror m1)).
    pose proof (tell_goes t m2 b [] (DOut (VOp op) (RVal p) DStop) 0 p l (d_mirror m2) 0%nat (d_val m2) tl (vc_heap _ _ _ _ V) eq_refl) as G.
    rewrite Nat.add_0_r in G. replace (mval m2 (d_val m2) (d_mirror m2)) with m2 in G by reflexivity. cbn [d_tell] in G.
    set (m3 := mval m2 (d_val m2) (mirrors (d_mirror m2) l p)) in *.
    destruct (cut t m (VOp op) VClear i j m1 _ _ m2 DStop (map VDisc l ++ [VRet VClear RUnit]) m3 DStop (map (fun o => Store o p) l ++ [VRet (VOp op) (RVal p)])
                m3 DStop [] N (op_to_tell m b l tl op p DStop V E)) as (s & w & R & EM & TI & TJ & TK & EL).
    - eapply goes_trans; [apply (clear_goes t m1 b l tl _ V1)|]. apply goes_one. reflexivity.
    - eapply goes_trans; [exact G|]. apply goes_one. reflexivity.
    - constructor.
    - exists s, w. split; [exact R|]. split; [apply (cut_done i j); assumption|]. rewrite EL. cbn [map app]. rewrite app_nil_r. reflexivity.
  Qed.

  (** Every call reads _M_finish; a new observed and clear_observers() write it. *)
  Lemma to_fin m c : fits t (d_val m) c -> exists x es k, goes m (prog [c]) es (mval m x (d_mirror m)) (DFin k).
  Proof.
    intros F. assert (M : mval m (d_val m) (d_mirror m) = m) by (destruct m; reflexivity).
    destruct c as [o|o| |v|op].
    1-4: exists (d_val m), []; eexists; rewrite M; apply goes_one; reflexivity.
    cbn [fits] in F. destruct (published_ub t (d_val m) op) as [U FU]. destruct (published t (d_val m) op) as [p| |] eqn:EP;
        [|destruct F; apply U; reflexivity|congruence].
    exists (apply_atomic t (d_val m) op), [Applied op]. eexists. rewrite <- (app_nil_r [Applied op]). eapply goes_on; [reflexivity|]. rewrite EP.
    apply goes_one. reflexivity.
  Qed.
  Lemma to_set m b l tl a : vec m b l tl -> (exists o, a = VAdd o /\ ~ In o l) \/ (a = VClear /\ l <> []) ->
    exists es m' p k, goes m (prog [a]) es m' (DSetFin p k).
  Proof.
    intros V [(o & -> & NI)|(-> & NE)].
    - destruct tl as [|x tl].
      + pose proof (grow_to_free t m b l o (DOut (VAdd o) (RErr ok) DStop) V) as G.
        pose proof (vec_more m b l [] (Some (grown l o (Nat.max (length l) 1 - 1))) V) as V1.
        eexists [], _, _, _. cbn [d_prog fold_right d_call].
        eapply goes_trans0; [apply (add_to_push t m b l [] o _ V NI)|]. eapply goes_trans0; [apply (push_full t m b l o _ V)|].
        eapply goes_trans0; [exact G|]. eapply goes_step; [cbn; rewrite (array_of _ _ _ (vc_heap _ _ _ _ V1)); cbn [bind]|].
        * instantiate (1 := set_members b (length (d_heap m)) l (DOut (VAdd o) (RErr ok) DStop)).
          instantiate (1 := if (b =? 0)%nat then _ else _). destruct (b =? 0)%nat; reflexivity.
        * apply goes_one. reflexivity.
      + eexists [], _, _, _. cbn [d_prog fold_right d_call].
        eapply goes_trans0; [apply (add_to_push t m b l _ o _ V NI)|]. apply (push_room t m b l x tl o _ V).
    - eexists (map VDisc l ++ []), _, _, _. cbn [d_prog fold_right d_call]. unfold d_clear.
      eapply goes_trans0; [apply range_goes; [apply (vc_start _ _ _ _ V)|apply (vc_fin _ _ _ _ V)]|].
      eapply goes_trans; [apply (disc_goes t m b _ l [] tl 0%nat (vc_heap _ _ _ _ V) eq_refl)|]. eapply goes_step; [reflexivity|]. apply goes_one. cbn.
      rewrite (vc_start _ _ _ _ V), (vc_fin _ _ _ _ V), deq_snd. destruct l as [|x l]; [congruence|]. reflexivity.
  Qed.
  Lemma race m l room a c i j : holds m l room -> i <> j -> (exists o, a = VAdd o /\ ~ In o l) \/ (a = VClear /\ l <> []) -> fits t (d_val m) c ->
    exists s w, drun (dstarted t m (two i j a c)) s = Ok w /\ data_race w.
  Proof.
    intros H N A F. apply holds_vec in H. destruct H as (b & tl & LT & V).
    destruct (to_fin m c F) as (x & es & k & G). destruct (to_set _ b l tl a (vec_val m b l tl x (d_mirror m) V) A) as (es' & m' & p & k' & G').
    destruct (cut t m a c i j m _ [] _ (DFin k) es m' (DSetFin p k') es' m' (DFin k) [] N (goes_here t m _) G G') as (s & w & R & EM & TI & TJ & _); [constructor|].
    exists s, w. split; [exact R|]. exists i, j, XFin, false. split; [exact N|]. rewrite TI, TJ. auto.
  Qed.
End Two.
