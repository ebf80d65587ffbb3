(** Schedules under which registration, removal and on_update go wrong. *)
From Verif Require Export VRegProofs.
From Verif Require ObsShareProofs3.

Section Wrong.
  Variable t : ity.
  Variable Max : Z.
  Variable fn : addr -> option nat.
  Variable st : addr -> nat.
  Notation rstep := (rstep t).
  Notation rrun := (rrun t).
  Notation goes := (goes t).
  Notation cap := (max_observers Max).
  Notation M x sl n mi := (RM x sl n mi fn st).

  Lemma reach_mem upd disc w : ity_ok t -> vreaches t Max upd disc w ->
    exists tl, mem_of fn st w = M (v_val w) (map Some (vmembers (v_log w)) ++ tl) (length (vmembers (v_log w))) (v_mirror w) /\
      (length (vmembers (v_log w)) + length tl = cap)%nat /\ NoDup (vmembers (v_log w)).
  Proof.
    intros T R. pose proof (vreach_inv t Max T upd disc w R) as I. destruct (vi_repr _ _ _ I) as [tl E].
    exists tl. unfold mem_of. rewrite E, (vi_cnt _ _ _ I). split; [reflexivity|]. split; [|apply (vi_nodup _ _ _ I)].
    rewrite <- (vi_len _ _ _ I), E, app_length, map_length. reflexivity.
  Qed.
  Lemma publish x op : ity_ok t -> ~ overflows t x op -> exists p, published t x op = Ok p /\ publishes t x op p.
  Proof.
    intros T N. destruct (published_ub t x op) as [U F]. destruct (published t x op) as [p| |] eqn:E; [|destruct N; apply U; reflexivity|congruence].
    exists p. split; [reflexivity|]. destruct op; cbn [publishes];
      first [apply published_predec; assumption
            |rewrite <- apply_math by exact T; eapply published_faithful; [exact T| |exact E]; reflexivity
            |cbn in E; injection E as <-; reflexivity].
  Qed.

  Definition mirrors (mi : addr -> Z) (l : list addr) (p : Z) : addr -> Z := fold_left (fun m o => set_mirror m o p) l mi.
  Lemma mirrors_out l p : forall mi o, ~ In o l -> mirrors mi l p o = mi o.
  Proof.
    induction l as [|a l IH]; intros mi o N; [reflexivity|]. change (mirrors mi (a :: l) p) with (mirrors (set_mirror mi a p) l p). rewrite IH by (intros H; apply N; right; exact H).
    unfold set_mirror. destruct (Pos.eqb_spec o a) as [->|]; [exfalso; apply N; left; reflexivity|reflexivity].
  Qed.
  Lemma mirrors_in l p : forall mi o, In o l -> mirrors mi l p o = p.
  Proof.
    induction l as [|a l IH]; intros mi o H; [destruct H|]. change (mirrors mi (a :: l) p) with (mirrors (set_mirror mi a p) l p). destruct (in_dec Pos.eq_dec o l) as [I|N]; [apply IH, I|].
    rewrite mirrors_out by exact N. destruct H as [->|H]; [|contradiction]. unfold set_mirror. rewrite Pos.eqb_refl. reflexivity.
  Qed.

  (** An operator up to its loop, and parts of the loop. *)
  Lemma op_start x sl n mi op p k : published t x op = Ok p -> (n <= cap)%nat ->
    goes (M x sl n mi) (call_code t Max (RC (VOp op)) k) [RApplied op] (M (apply_atomic t x op) sl n mi)
         (tell_code p 0 n (ROut (RC (VOp op)) (RVal p) k)).
  Proof.
    intros E L. cbn [call_code]. unfold op_code. change [RApplied op] with ([RApplied op] ++ []).
    eapply goes_on; [reflexivity|]. cbn [r_val]. rewrite E. unfold notify_code.
    eapply goes_step; [reflexivity|]. cbn [r_cnt]. replace (cap <? n)%nat with false by lia.
    eapply goes_step; [reflexivity|]. constructor.
  Qed.
  Lemma tell_part x n p k r : forall l pre tl mi,
    goes (M x (pre ++ map Some l ++ tl) n mi) (tell_code p (length pre) (length l + r) k) (informed fn l p)
         (M x (pre ++ map Some l ++ tl) n (mirrors mi l p)) (tell_code p (length pre + length l) r k).
  Proof.
    induction l as [|o l IH]; intros pre tl mi.
    - cbn. rewrite Nat.add_0_r. constructor.
    - cbn [map length Nat.add tell_code informed flat_map app]. eapply goes_slot; [apply slot_app|]. cbv beta.
      set (w := VW x (pre ++ Some o :: map Some l ++ tl) n mi []).
      destruct (data_goes t fn st p o (tell_code p (S (length pre)) (length l + r) k) w) as (es & -> & G).
      eapply goes_trans; [exact G|]. cbn [w v_val v_slots v_cnt v_mirror].
      specialize (IH (pre ++ [Some o]) tl (set_mirror mi o p)). rewrite app_length in IH. cbn [length] in IH.
      replace (pre ++ Some o :: map Some l ++ tl) with ((pre ++ [Some o]) ++ map Some l ++ tl) by (rewrite <- app_assoc; reflexivity).
      replace (S (length pre)) with (length pre + 1)%nat by lia.
      replace (length pre + S (length l))%nat with (length pre + 1 + length l)%nat by lia. exact IH.
  Qed.
  Lemma tell_all x n p k l pre tl mi :
    goes (M x (pre ++ map Some l ++ tl) n mi) (tell_code p (length pre) (length l) k) (informed fn l p)
         (M x (pre ++ map Some l ++ tl) n (mirrors mi l p)) k.
  Proof. pose proof (tell_part x n p k 0 l pre tl mi) as H. rewrite Nat.add_0_r in H. exact H. Qed.

  Lemma remove_one l1 l2 tl o : (length (l1 ++ o :: l2) <= cap)%nat -> ~ In o l1 -> ~ In o l2 ->
    remove_observer Max (map Some (l1 ++ o :: l2) ++ tl) (length (l1 ++ o :: l2)) o
    = Ok (map Some (l1 ++ l2) ++ Some (last l2 o) :: tl, length (l1 ++ l2), ok).
  Proof.
    intros L N1 N2. unfold remove_observer. replace (cap <? length (l1 ++ o :: l2))%nat with false by lia.
    assert (LP : length (l1 ++ o :: l2) = S (length (l1 ++ l2))) by (rewrite !app_length; cbn; lia).
    replace (length (l1 ++ o :: l2) =? 0)%nat with false by lia. unfold std_remove.
    destruct (find_spec (l1 ++ o :: l2) [] tl o) as [[H _]|(p & q & H1 & H2 & H3)]; [exfalso; apply H; apply in_or_app; right; left; reflexivity|].
    cbn [app length Nat.add] in H3.
    assert (p = l1).
    { clear - H1 H2 N1. revert p H1 H2 N1. induction l1 as [|a l1 IH]; intros p H1 H2 N1; destruct p as [|b p]; cbn in H1.
      - reflexivity.
      - injection H1 as -> _. exfalso. apply H2. left. reflexivity.
      - injection H1 as -> _. exfalso. apply N1. left. reflexivity.
      - injection H1 as -> H1. f_equal. apply IH; [exact H1|intros X; apply H2; right; exact X|intros X; apply N1; right; exact X]. }
    subst p. rewrite H3. cbn [bind]. replace (length l1 =? length (l1 ++ o :: l2))%nat with false by (rewrite app_length; cbn; lia).
    replace (length (l1 ++ o :: l2) - S (length l1))%nat with (length l2) by (rewrite app_length; cbn; lia).
    rewrite (map_app (@Some addr) l1), <- app_assoc. cbn [map app]. rewrite ObsShareProofs3.compact_shift by exact N2. cbn [bind].
    rewrite <- app_length. replace (length (l1 ++ o :: l2) - length (l1 ++ l2) =? 0)%nat with false by lia. reflexivity.
  Qed.
  Lemma remove_goes1 x mi l1 l2 tl o k : (length (l1 ++ o :: l2) <= cap)%nat -> ~ In o l1 -> ~ In o l2 ->
    goes (M x (map Some (l1 ++ o :: l2) ++ tl) (length (l1 ++ o :: l2)) mi) (call_code t Max (RC (VRemove o)) k)
         [RRet (RC (VRemove o)) (RErr ok)] (M x (map Some (l1 ++ l2) ++ Some (last l2 o) :: tl) (length (l1 ++ l2)) mi) k.
  Proof.
    intros L N1 N2. cbn [call_code].
    eapply goes_trans0; [eapply (remove_goes t Max (M x (map Some (l1 ++ o :: l2) ++ tl) (length (l1 ++ o :: l2)) mi)); cbn [r_slots r_cnt]; apply remove_one; assumption|].
    apply goes_one. reflexivity.
  Qed.

  (** ** later calls *)
  Lemma alone_op x mi l tl op p : published t x op = Ok p -> (length l <= cap)%nat ->
    exists m', alone t Max (M x (map Some l ++ tl) (length l) mi) (RC (VOp op))
               = Ok (m', RApplied op :: informed fn l p ++ [RRet (RC (VOp op)) (RVal p)]) /\ r_mirror m' = mirrors mi l p.
  Proof.
    intros E L. cbn [alone vrun r_val r_slots r_cnt r_mirror r_fun r_set v_val v_slots v_cnt v_mirror v_log]. rewrite E. cbn [bind].
    unfold vnotify. cbn [vemit v_cnt v_val v_slots v_mirror v_log app]. replace (cap <? length l)%nat with false by lia.
    match goal with |- context [vloop (vcall_data ?u ?stp p) 0 _ _] => set (step := stp) end.
    assert (G : forall l pre x mi lg, vloop (vcall_data (fun _ _ _ => VReturn) step p) (length pre) (length l) (VW x (pre ++ map Some l ++ tl) (length l + length pre) mi lg)
                 = Ok (VW x (pre ++ map Some l ++ tl) (length l + length pre) (mirrors mi l p) (lg ++ map (fun o => Store o p) l))).
    { clear. induction l as [|o l IH]; intros pre x mi lg; cbn [length vloop map app]; [rewrite app_nil_r; reflexivity|].
      unfold vcall_data at 1. cbn [v_slots]. rewrite slot_app. cbn [bind vbody_run vemit v_val v_slots v_cnt v_mirror v_log].
      specialize (IH (pre ++ [Some o]) x (set_mirror mi o p) (lg ++ [Store o p])).
      rewrite app_length in IH. cbn [length] in IH. replace (length pre + 1)%nat with (S (length pre)) in IH by lia.
      rewrite <- !app_assoc in IH. cbn [app] in IH. replace (S (length l) + length pre)%nat with (length l + S (length pre))%nat by lia.
      exact IH. }
    specialize (G l [] (apply_atomic t x op) mi [Applied op]). cbn [length app] in G. rewrite Nat.add_0_r in G.
    match goal with |- context [vloop ?f 0 ?n ?w] => replace (vloop f 0 n w) with (Ok (VW (apply_atomic t x op) (map Some l ++ tl) (length l) (mirrors mi l p) ([Applied op] ++ map (fun o => Store o p) l))) by (symmetry; exact G) end.
    cbn. rewrite flat_map_app.
    replace (flat_map (seen fn) (map (fun o => Store o p) l)) with (informed fn l p).
    2:{ unfold informed. clear. induction l as [|o l IH]; [reflexivity|]. cbn [flat_map map]. rewrite IH. reflexivity. }
    eexists. split; [reflexivity|]. reflexivity.
  Qed.
  Lemma alone_remove_none x mi l tl o : (length l <= cap)%nat -> ~ In o l ->
    exists m', alone t Max (M x (map Some l ++ tl) (length l) mi) (RC (VRemove o)) = Ok (m', [RRet (RC (VRemove o)) (RErr not_found)]).
  Proof.
    intros L N. cbn [alone vrun r_val r_slots r_cnt r_mirror v_val v_slots v_cnt v_mirror v_log].
    destruct (remove_repr Max l tl o L) as (g & -> & _). cbn. unfold remove_answer.
    destruct (in_dec Pos.eq_dec o l) as [H|_]; [contradiction|]. eexists. reflexivity.
  Qed.

  (** ** registration *)
  Lemma add_reads x mi l tl o k : (length l < cap)%nat -> ~ In o l ->
    goes (M x (map Some l ++ tl) (length l) mi) (call_code t Max (RC (VAdd o)) k) [] (M x (map Some l ++ tl) (length l) mi)
         (RCnt (fun v => RSetCnt (S v) (RSetSlot v (Some o) (ROut (RC (VAdd o)) (RErr ok) k)))).
  Proof.
    intros L N. cbn [call_code]. unfold add_code. eapply goes_step; [reflexivity|]. cbn [r_cnt]. replace (cap <=? length l)%nat with false by lia.
    eapply goes_step; [reflexivity|]. cbn [r_cnt].
    pose proof (contains_spec l [] tl o) as C. cbn [app length] in C. destruct (in_dec Pos.eq_dec o l) as [H|_]; [contradiction|].
    apply (scan_goes t (M x (map Some l ++ tl) (length l) mi) o _ _ _ _ false C).
  Qed.
  Lemma lost_add x mi l y tl i j o1 o2 : i <> j -> (length l < cap)%nat -> ~ In o1 l -> ~ In o2 l ->
    exists s w, rrun (rstart t Max (M x (map Some l ++ y :: tl) (length l) mi) (two i j (RC (VAdd o1)) (RC (VAdd o2)))) s = ROk w /\
      all_done w /\ r_log w = [(i, RRet (RC (VAdd o1)) (RErr ok)); (j, RRet (RC (VAdd o2)) (RErr ok))] /\
      r_mem w = M x (map Some (l ++ [o2]) ++ tl) (length (l ++ [o2])) mi.
  Proof.
    intros N L N1 N2. set (m := M x (map Some l ++ y :: tl) (length l) mi).
    set (aft := fun o => RSetCnt (S (length l)) (RSetSlot (length l) (Some o) (ROut (RC (VAdd o)) (RErr ok) RStop))).
    assert (G : forall o, ~ In o l -> goes m (prog t Max [RC (VAdd o)]) [] m (aft o)).
    { intros o NO. eapply goes_trans0; [apply add_reads; assumption|]. apply goes_one. reflexivity. }
    assert (P : forall o z n, goes (M x (map Some l ++ z :: tl) n mi) (aft o) [RRet (RC (VAdd o)) (RErr ok)] (M x (map Some (l ++ [o]) ++ tl) (S (length l)) mi) RStop).
    { intros o z n. eapply goes_step; [reflexivity|]. eapply goes_step; [cbn; rewrite ObsShareProofs3.put_end; reflexivity|]. apply goes_one. reflexivity. }
    pose proof (P o1 y (length l)) as P1. fold m in P1.
    assert (P2 := P o2 (Some o1) (S (length l))).
    replace (map Some l ++ Some o1 :: tl) with (map Some (l ++ [o1]) ++ tl) in P2 by (rewrite map_app, <- app_assoc; reflexivity).
    destruct (cut t Max m _ _ i j _ _ _ _ _ _ _ _ _ _ _ _ N (G o1 N1) (G o2 N2) P1 P2) as (s & w & R & E1 & E2 & E3 & E4 & E5).
    exists s, w. split; [exact R|]. split; [apply (cut_done i j); assumption|]. split; [exact E5|].
    rewrite E1, ObsShareProofs3.len_snoc. reflexivity.
  Qed.
  Lemma overflow x mi l y i j o1 o2 : i <> j -> S (length l) = cap -> ~ In o1 l -> ~ In o2 l ->
    exists s, rrun (rstart t Max (M x (map Some l ++ [y]) (length l) mi) (two i j (RC (VAdd o1)) (RC (VAdd o2)))) s = RUndef.
  Proof.
    intros N L N1 N2. set (m := M x (map Some l ++ [y]) (length l) mi).
    set (rd := fun o => RCnt (fun v => RSetCnt (S v) (RSetSlot v (Some o) (ROut (RC (VAdd o)) (RErr ok) RStop)))).
    assert (G : forall o, ~ In o l -> goes m (prog t Max [RC (VAdd o)]) [] m (rd o)) by (intros o NO; apply add_reads; [lia|exact NO]).
    set (m1 := M x (map Some (l ++ [o2]) ++ []) (S (length l)) mi).
    assert (P1 : goes m (prog t Max [RC (VAdd o2)]) [RRet (RC (VAdd o2)) (RErr ok)] m1 RStop).
    { eapply goes_trans0; [apply (G o2 N2)|]. eapply goes_step; [reflexivity|]. eapply goes_step; [reflexivity|].
      eapply goes_step; [cbn; rewrite ObsShareProofs3.put_end; reflexivity|]. apply goes_one. reflexivity. }
    assert (P2 : goes m1 (rd o1) [] (M x (map Some (l ++ [o2]) ++ []) (S (S (length l))) mi) (RSetSlot (S (length l)) (Some o1) (ROut (RC (VAdd o1)) (RErr ok) RStop))).
    { eapply goes_step; [reflexivity|]. apply goes_one. reflexivity. }
    destruct (cut t Max m _ _ i j _ _ _ _ _ _ _ _ _ _ _ _ N (G o1 N1) P1 P2 (goes_here t _ _)) as (s & w & R & E1 & E2 & E3 & E4 & E5).
    exists (s ++ [i]). rewrite (rrun_app t _ _ _ _ R). cbn [VRegModel.rrun]. unfold rmove. rewrite E2, E1. cbn [VRegModel.rstep r_slots].
    unfold put_slot. replace (nth_error (map Some (l ++ [o2]) ++ []) (S (length l))) with (@None ptr); [reflexivity|].
    symmetry. apply nth_error_None. rewrite app_nil_r, map_length, ObsShareProofs3.len_snoc. lia.
  Qed.

  (** ** removal during an update *)
  Lemma late_call x mi p o tl i j op q : i <> j -> NoDup (p ++ [o]) -> (length (p ++ [o]) <= cap)%nat -> published t x op = Ok q ->
    exists s w, rrun (rstart t Max (M x (map Some (p ++ [o]) ++ tl) (length (p ++ [o])) mi) (two i j (RC (VOp op)) (RC (VRemove o)))) s = ROk w /\
      all_done w /\ r_log w = map (pair i) (RApplied op :: informed fn p q) ++
                              [(j, RRet (RC (VRemove o)) (RErr ok))] ++ map (pair i) (informed fn [o] q ++ [RRet (RC (VOp op)) (RVal q)]).
  Proof.
    intros N ND L EP. set (m := M x (map Some (p ++ [o]) ++ tl) (length (p ++ [o])) mi).
    assert (NP : ~ In o p) by (apply NoDup_remove_2 in ND; rewrite app_nil_r in ND; exact ND).
    pose proof (op_start x (map Some (p ++ [o]) ++ tl) (length (p ++ [o])) mi op q RStop EP L) as H0.
    assert (SL : map Some (p ++ [o]) ++ tl = map Some p ++ Some o :: tl) by (rewrite map_app, <- app_assoc; reflexivity).
    set (x' := apply_atomic t x op) in *. set (out := ROut (RC (VOp op)) (RVal q) RStop) in *.
    pose proof (tell_part x' (length (p ++ [o])) q out 1 p [] (Some o :: tl) mi) as H1. cbn [app length Nat.add] in H1. rewrite <- SL in H1.
    replace (length p + 1)%nat with (length (p ++ [o])) in H1 by (rewrite app_length; reflexivity).
    pose proof (goes_trans t _ _ _ _ _ _ _ _ H0 H1) as H2. cbn [app] in H2.
    pose proof (remove_goes1 x' (mirrors mi p q) p [] tl o RStop L NP (fun x => x)) as H3. rewrite app_nil_r in H3. cbn [last] in H3.
    pose proof (tell_all x' (length p) q out [o] (map Some p) tl (mirrors mi p q)) as H4. rewrite map_length in H4. cbn [map app length] in H4.
    assert (H5 : goes (M x' (map Some p ++ Some o :: tl) (length p) (mirrors (mirrors mi p q) [o] q)) out [RRet (RC (VOp op)) (RVal q)]
                   (M x' (map Some p ++ Some o :: tl) (length p) (mirrors (mirrors mi p q) [o] q)) RStop) by (apply goes_one; reflexivity).
    pose proof (goes_trans t _ _ _ _ _ _ _ _ H4 H5) as H6.
    destruct (cut t Max m (RC (VOp op)) (RC (VRemove o)) i j _ _ _ _ _ _ _ _ _ _ _ _ N H2 H3 H6 (goes_here t _ _)) as (s & w & R & E1 & E2 & E3 & E4 & E5).
    exists s, w. split; [exact R|]. split; [apply (cut_done i j); assumption|]. rewrite E5. cbn [map]. rewrite app_nil_r. reflexivity.
  Qed.
  Lemma missed x mi o1 o2 l tl i j op q : i <> j -> NoDup (o1 :: o2 :: l) -> l <> [] -> (length (o1 :: o2 :: l) <= cap)%nat -> published t x op = Ok q ->
    exists s w, rrun (rstart t Max (M x (map Some (o1 :: o2 :: l) ++ tl) (length (o1 :: o2 :: l)) mi) (two i j (RC (VOp op)) (RC (VRemove o1)))) s = ROk w /\
      all_done w /\
      r_log w = map (pair i) (RApplied op :: informed fn [o1] q) ++ [(j, RRet (RC (VRemove o1)) (RErr ok))] ++
                map (pair i) (informed fn (l ++ [last l o2]) q ++ [RRet (RC (VOp op)) (RVal q)]) /\
      r_mem w = M (apply_atomic t x op) (map Some (o2 :: l) ++ Some (last l o2) :: tl) (length (o2 :: l)) (mirrors (mirrors mi [o1] q) (l ++ [last l o2]) q).
  Proof.
    intros N ND NE L EP. set (m := M x (map Some (o1 :: o2 :: l) ++ tl) (length (o1 :: o2 :: l)) mi).
    assert (NI : ~ In o1 (o2 :: l)) by (inversion ND; assumption).
    pose proof (op_start x (map Some (o1 :: o2 :: l) ++ tl) (length (o1 :: o2 :: l)) mi op q RStop EP L) as H0.
    set (x' := apply_atomic t x op) in *. set (out := ROut (RC (VOp op)) (RVal q) RStop) in *.
    pose proof (tell_part x' (length (o1 :: o2 :: l)) q out (length (o2 :: l)) [o1] [] (map Some (o2 :: l) ++ tl) mi) as H1. cbn [app length map Nat.add] in H1.
    pose proof (goes_trans t _ _ _ _ _ _ _ _ H0 H1) as H2. cbn [app] in H2.
    pose proof (remove_goes1 x' (mirrors mi [o1] q) [] (o2 :: l) tl o1 RStop L (fun x => x) NI) as H3. cbn [app] in H3.
    assert (LA : last (o2 :: l) o1 = last l o2).
    { destruct l as [|z l']; [congruence|]. change (last (o2 :: z :: l') o1) with (last (z :: l') o1). clear.
      revert z. induction l' as [|a l' IH]; intros z; [reflexivity|]. apply (IH a). }
    rewrite LA in H3.
    pose proof (tell_all x' (length (o2 :: l)) q out (l ++ [last l o2]) [Some o2] tl (mirrors mi [o1] q)) as H4.
    rewrite ObsShareProofs3.len_snoc in H4.
    replace ([Some o2] ++ map Some (l ++ [last l o2]) ++ tl) with (map Some (o2 :: l) ++ Some (last l o2) :: tl) in H4
      by (cbn; rewrite map_app, <- app_assoc; reflexivity).
    cbn [length] in H2, H3, H4.
    match type of H4 with VRegProofs.goes _ _ _ _ ?mm _ =>
      assert (H5 : goes mm out [RRet (RC (VOp op)) (RVal q)] mm RStop) by (apply goes_one; reflexivity) end.
    pose proof (goes_trans t _ _ _ _ _ _ _ _ H4 H5) as H6.
    destruct (cut t Max m (RC (VOp op)) (RC (VRemove o1)) i j _ _ _ _ _ _ _ _ _ _ _ _ N H2 H3 H6 (goes_here t _ _)) as (s & w & R & E1 & E2 & E3 & E4 & E5).
    exists s, w. split; [exact R|]. split; [apply (cut_done i j); assumption|]. split; [|exact E1]. rewrite E5. cbn [map]. rewrite app_nil_r. reflexivity.
  Qed.

  Lemma clear_goes1 x mi l tl k :
    goes (M x (map Some l ++ tl) (length l) mi) (call_code t Max (RC VClear) k) (map RDisced l ++ [RRet (RC VClear) RUnit])
         (M x (map Some l ++ tl) 0 mi) k.
  Proof.
    cbn [call_code]. unfold clear_code. eapply goes_step; [reflexivity|]. cbn [r_cnt].
    assert (G : forall l pre n, goes (M x (pre ++ map Some l ++ tl) n mi) (disc_code (length pre) (length l) (ROut (RC VClear) RUnit k))
                  (map RDisced l ++ [RRet (RC VClear) RUnit]) (M x (pre ++ map Some l ++ tl) 0 mi) k).
    { clear. induction l as [|o l IH]; intros pre n; cbn [map length disc_code app].
      - eapply goes_step; [reflexivity|]. apply goes_one. reflexivity.
      - eapply goes_slot; [apply slot_app|]. cbv beta iota.
        change (RDisced o :: map RDisced l ++ [RRet (RC VClear) RUnit]) with ([RDisced o] ++ map RDisced l ++ [RRet (RC VClear) RUnit]).
        eapply goes_on; [reflexivity|]. specialize (IH (pre ++ [Some o]) n). rewrite app_length in IH. cbn [length] in IH.
        replace (length pre + 1)%nat with (S (length pre)) in IH by lia. rewrite <- !app_assoc in IH. exact IH. }
    exact (G l [] (length l)).
  Qed.
  Lemma told_cleared x mi l tl i j op q : i <> j -> (length l <= cap)%nat -> published t x op = Ok q ->
    exists s w, rrun (rstart t Max (M x (map Some l ++ tl) (length l) mi) (two i j (RC (VOp op)) (RC VClear))) s = ROk w /\
      all_done w /\ r_cnt (r_mem w) = 0%nat /\
      r_log w = (i, RApplied op) :: map (pair j) (map RDisced l ++ [RRet (RC VClear) RUnit]) ++
                map (pair i) (informed fn l q ++ [RRet (RC (VOp op)) (RVal q)]).
  Proof.
    intros N L EP. set (m := M x (map Some l ++ tl) (length l) mi).
    pose proof (op_start x (map Some l ++ tl) (length l) mi op q RStop EP L) as H0.
    set (x' := apply_atomic t x op) in *. set (out := ROut (RC (VOp op)) (RVal q) RStop) in *.
    pose proof (clear_goes1 x' mi l tl RStop) as H1.
    pose proof (tell_all x' 0 q out l [] tl mi) as H2. cbn [app length] in H2.
    match type of H2 with VRegProofs.goes _ _ _ _ ?mm _ =>
      assert (H3 : goes mm out [RRet (RC (VOp op)) (RVal q)] mm RStop) by (apply goes_one; reflexivity) end.
    pose proof (goes_trans t _ _ _ _ _ _ _ _ H2 H3) as H4.
    destruct (cut t Max m (RC (VOp op)) (RC VClear) i j _ _ _ _ _ _ _ _ _ _ _ _ N H0 H1 H4 (goes_here t _ _)) as (s & w & R & E1 & E2 & E3 & E4 & E5).
    exists s, w. split; [exact R|]. split; [apply (cut_done i j); assumption|]. split; [rewrite E1; reflexivity|].
    rewrite E5. cbn [map app]. rewrite app_nil_r. reflexivity.
  Qed.

  (** ** the functions *)
  Lemma to_has x mi p o l tl op q k : (length (p ++ o :: l) <= cap)%nat -> published t x op = Ok q ->
    exists e m d, goes (M x (map Some (p ++ o :: l) ++ tl) (length (p ++ o :: l)) mi) (call_code t Max (RC (VOp op)) k) e m
                    (RHas o (fun b => if b then RGo o q (fun g => RBack o g d) else d)) /\ r_fun m = fn /\ r_set m = st.
  Proof.
    intros L EP. pose proof (op_start x (map Some (p ++ o :: l) ++ tl) (length (p ++ o :: l)) mi op q k EP L) as H0.
    set (x' := apply_atomic t x op) in *. set (out := ROut (RC (VOp op)) (RVal q) k) in *.
    pose proof (tell_part x' (length (p ++ o :: l)) q out (S (length l)) p [] (map Some (o :: l) ++ tl) mi) as H1. cbn [app length Nat.add] in H1.
    replace (map Some p ++ map Some (o :: l) ++ tl) with (map Some (p ++ o :: l) ++ tl) in H1 by (rewrite map_app, <- app_assoc; reflexivity).
    replace (length p + S (length l))%nat with (length (p ++ o :: l)) in H1 by (rewrite app_length; reflexivity).
    eexists _, (RM x' (map Some (p ++ o :: l) ++ tl) (length (p ++ o :: l)) (set_mirror (mirrors mi p q) o q) fn st), _.
    split; [|split; reflexivity].
    eapply goes_trans; [exact H0|]. eapply goes_trans; [exact H1|]. cbn [tell_code].
    eapply goes_slot; [cbn [r_slots]; rewrite map_app, <- app_assoc; cbn [map app]; rewrite <- (map_length (@Some addr) p) at 1; apply slot_app|].
    cbv beta iota. unfold data_code. apply goes_one. reflexivity.
  Qed.
  Lemma fun_taken x mi p o l tl i j op q f : i <> j -> (length (p ++ o :: l) <= cap)%nat -> published t x op = Ok q -> fn o = Some f ->
    exists s, rrun (rstart t Max (M x (map Some (p ++ o :: l) ++ tl) (length (p ++ o :: l)) mi) (two i j (RC (VOp op)) (RFun o None))) s = RDead.
  Proof.
    intros N L EP F. destruct (to_has x mi p o l tl op q RStop L EP) as (e & m & d & H & HF & HS).
    assert (H1 : goes (M x (map Some (p ++ o :: l) ++ tl) (length (p ++ o :: l)) mi) (prog t Max [RC (VOp op)]) e m (RGo o q (fun g => RBack o g d))).
    { rewrite <- (app_nil_r e). eapply goes_trans; [exact H|]. eapply goes_step; [reflexivity|]. rewrite HF, F. constructor. }
    pose proof (call_goes t Max m (RFun o None) _ _ RStop eq_refl) as H2.
    destruct (cut t Max _ _ _ i j _ _ _ _ _ _ _ _ _ _ _ _ N H1 H2 (goes_here t _ _) (goes_here t _ _)) as (s & w & R & E1 & E2 & _).
    exists (s ++ [i]). rewrite (rrun_app t _ _ _ _ R). cbn [VRegModel.rrun]. unfold rmove. rewrite E2, E1. cbn [VRegModel.rstep r_fun].
    rewrite Pos.eqb_refl. reflexivity.
  Qed.
  Lemma fun_replaced x mi p o l tl i j op q f g : i <> j -> (length (p ++ o :: l) <= cap)%nat -> published t x op = Ok q -> fn o = Some f ->
    exists s, rrun (rstart t Max (M x (map Some (p ++ o :: l) ++ tl) (length (p ++ o :: l)) mi) (two i j (RC (VOp op)) (RFun o g))) s = RUndef.
  Proof.
    intros N L EP F. destruct (to_has x mi p o l tl op q RStop L EP) as (e & m & d & H & HF & HS).
    assert (H1 : goes (M x (map Some (p ++ o :: l) ++ tl) (length (p ++ o :: l)) mi) (prog t Max [RC (VOp op)]) (e ++ [RCalled o f q]) m (RBack o (st o) d)).
    { eapply goes_trans; [exact H|]. eapply goes_step; [reflexivity|]. rewrite HF, F. apply goes_one. cbn [VRegModel.rstep]. rewrite HF, F, HS. reflexivity. }
    pose proof (call_goes t Max m (RFun o g) _ _ RStop eq_refl) as H2.
    destruct (cut t Max _ _ _ i j _ _ _ _ _ _ _ _ _ _ _ _ N H1 H2 (goes_here t _ _) (goes_here t _ _)) as (s & w & R & E1 & E2 & _).
    exists (s ++ [i]). rewrite (rrun_app t _ _ _ _ R). cbn [VRegModel.rrun]. unfold rmove. rewrite E2, E1. cbn [VRegModel.rstep r_set].
    rewrite Pos.eqb_refl, HS. replace (S (st o) =? st o)%nat with false by (symmetry; apply Nat.eqb_neq; lia). reflexivity.
  Qed.
End Wrong.

(** ** logs *)
Lemma of_thread_app i a b : of_thread i (a ++ b) = of_thread i a ++ of_thread i b.
Proof. apply flat_map_app. Qed.
Lemma of_thread_own i l : of_thread i (map (pair i) l) = l.
Proof. induction l as [|x l IH]; [reflexivity|]. unfold of_thread in *. cbn. rewrite Nat.eqb_refl. cbn. f_equal. exact IH. Qed.
Lemma of_thread_other i j l : i <> j -> of_thread i (map (pair j) l) = [].
Proof.
  intros N. induction l as [|x l IH]; [reflexivity|]. unfold of_thread in *. cbn. destruct (Nat.eqb_spec j i); [congruence|]. exact IH.
Qed.
Lemma before_app {A} (p q : list A) a b : In a p -> In b q -> before (p ++ q) a b.
Proof.
  intros HA HB. apply in_split in HA. destruct HA as (p1 & p2 & ->). apply in_split in HB. destruct HB as (q1 & q2 & ->).
  exists p1, (p2 ++ q1), q2. rewrite <- !app_assoc. reflexivity.
Qed.
Lemma informed_stored fn l v o : In o l -> In (RStored o v) (informed fn l v).
Proof. intros H. apply in_flat_map. exists o. split; [exact H|left; reflexivity]. Qed.
Lemma informed_called fn l v o f : In o l -> fn o = Some f -> In (RCalled o f v) (informed fn l v).
Proof. intros H F. apply in_flat_map. exists o. split; [exact H|]. cbn. rewrite F. right. left. reflexivity. Qed.

(** ** races *)
Section Races.
  Variable t : ity.
  Variable Max : Z.
  Notation rrun := (rrun t).
  Notation goes := (goes t).

  (** Code without operators. *)
  Fixpoint noupd (d : rcode) : Prop :=
    match d with
    | RStop | RBad => True
    | RCnt k | RGo _ _ k => forall n, noupd (k n)
    | RSlot _ k => forall x, noupd (k x)
    | RHas _ k => forall b, noupd (k b)
    | RUpd _ _ => False
    | RSetCnt _ k | RSetSlot _ _ k | RKeep _ _ k | RBack _ _ k | RSetFun _ _ k | RDis _ k | ROut _ _ k => noupd k
    end.
  Lemma noupd_scan o yes no : noupd yes -> noupd no -> forall rem i, noupd (scan_code o i rem yes no).
  Proof. intros A B. induction rem as [|q IH]; intros i; cbn; [exact B|]. intros x. destruct (points_to x o); [exact A|apply IH]. Qed.
  Lemma noupd_left r k : (forall e, noupd (k e)) -> noupd (left_code r k).
  Proof. intros A n. cbn. destruct (n - r =? 0)%nat; [apply A|cbn; apply A]. Qed.
  Lemma noupd_move o k : (forall e, noupd (k e)) -> forall rem r i, noupd (move_code o r i rem k).
  Proof. intros A. induction rem as [|q IH]; intros r i; cbn [move_code]; [apply noupd_left, A|]. intros x. destruct (points_to x o); [apply IH|cbn; apply IH]. Qed.
  Lemma noupd_find o k : (forall e, noupd (k e)) -> forall rem i, noupd (find_code o i rem k).
  Proof. intros A. induction rem as [|q IH]; intros i; cbn [find_code]; [apply noupd_left, A|]. intros x. destruct (points_to x o); [apply noupd_move, A|apply IH]. Qed.
  Lemma noupd_disc k : noupd k -> forall rem i, noupd (disc_code i rem k).
  Proof. intros A. induction rem as [|q IH]; intros i; cbn; [exact A|]. intros [o|]; cbn; [apply IH|exact Logic.I]. Qed.
  Lemma noupd_tell v k : noupd k -> forall rem i, noupd (tell_code v i rem k).
  Proof.
    intros A. induction rem as [|q IH]; intros i; cbn [tell_code]; [exact A|]. intros [o|]; cbn; [|exact Logic.I].
    intros [|]; cbn; [intros _|]; apply IH.
  Qed.
  Definition is_op (c : rcall) : bool := match c with RC (VOp _) => true | _ => false end.
  Lemma noupd_call c k : noupd k -> is_op c = false -> noupd (call_code t Max c k).
  Proof.
    intros K N. destruct c as [[o|o| |n|op]|o f]; try discriminate N; cbn [call_code].
    - intros n. destruct (max_observers Max <=? n)%nat; [exact K|]. intros n1. apply noupd_scan; [exact K|]. intros n2. exact K.
    - intros n. destruct (max_observers Max <? n)%nat; [exact K|]. intros n1. destruct (n1 =? 0)%nat; [exact K|]. intros n2. apply noupd_find. intros e. exact K.
    - intros n. apply noupd_disc. exact K.
    - unfold notify_code. intros v. destruct (max_observers Max <? v)%nat; [exact K|]. intros n1. apply noupd_tell. exact K.
    - exact K.
  Qed.
  Lemma noupd_step m d m' d' es : rstep t m d = ROk (m', d', es) -> noupd d -> noupd d' /\ r_val m' = r_val m.
  Proof.
    intros E H. destruct d; cbn [rstep noupd] in *; try contradiction; try discriminate E;
      repeat (match type of E with
              | (if ?c then _ else _) = _ => destruct c; try discriminate E
              | match ?x with _ => _ end = _ => destruct x; try discriminate E end);
      injection E as <- <- _; (split; [auto|reflexivity]).
  Qed.
  Lemma noupd_goes m d es m' d' : goes m d es m' d' -> noupd d -> r_val m' = r_val m.
  Proof.
    induction 1 as [m d|m d m1 d1 e es m2 d2 E H IH]; intros U; [reflexivity|]. destruct (noupd_step _ _ _ _ _ E U) as [U1 E1].
    rewrite IH by exact U1. exact E1.
  Qed.

  Lemma cnt_step m d m' d' es : rstep t m d = ROk (m', d', es) -> touches d <> Some (QCount, true) -> r_cnt m' = r_cnt m.
  Proof.
    intros E N. destruct d; cbn [rstep touches] in *; try congruence; try discriminate E;
      repeat (match type of E with
              | (if ?c then _ else _) = _ => destruct c; try discriminate E
              | match ?x with _ => _ end = _ => destruct x; try discriminate E end); injection E as <- _ _; reflexivity.
  Qed.
  Lemma cnt_race m d es m' d' : goes m d es m' d' -> r_cnt m' <> r_cnt m ->
    exists m1 d1 e1, goes m d e1 m1 d1 /\ touches d1 = Some (QCount, true).
  Proof.
    induction 1 as [m d|m d m1 d1 e es m2 d2 E H IH]; intros C; [congruence|].
    assert (D : touches d = Some (QCount, true) \/ touches d <> Some (QCount, true)).
    { destruct (touches d) as [[[|i|o] [|]]|]; (left; reflexivity) || (right; discriminate). }
    destruct D as [D|D]; [exists m, d, []; split; [constructor|exact D]|].
    destruct IH as (m3 & d3 & e3 & S3 & A3); [rewrite (cnt_step _ _ _ _ _ E D); exact C|].
    exists m3, d3, (e ++ e3). split; [econstructor; eassumption|exact A3].
  Qed.
  Lemma op_cnt m op m' es : alone t Max m (RC (VOp op)) = Ok (m', es) -> r_cnt m' = r_cnt m.
  Proof.
    cbn [alone]. set (w := VW _ _ _ _ _). destruct (vrun t Max _ _ 1 w (VOp op)) as [[w1 r]| |] eqn:E; cbn [bind]; try discriminate.
    intros [= <- <-]. cbn [mem_of r_cnt]. change (r_cnt m) with (v_cnt w). clearbody w. cbn [vrun] in E.
    destruct (published t (v_val w) op) as [p| |]; cbn [bind] in E; try discriminate. unfold vnotify in E. cbn [vemit v_cnt] in E.
    destruct (max_observers Max <? v_cnt w)%nat; [injection E as <- _; reflexivity|].
    match type of E with context [vloop (vcall_data ?u ?stp p) 0 _ _] => set (step := stp) in E; set (up := u) in E end.
    assert (G : forall rem i w w2, vloop (vcall_data up step p) i rem w = Ok w2 -> v_cnt w2 = v_cnt w).
    { clear. induction rem as [|q IH]; intros i w w2; cbn [vloop]; [intros [= <-]; reflexivity|].
      unfold vcall_data at 1. destruct (slot (v_slots w) i) as [[o|]| |]; cbn [bind]; try discriminate. subst up. cbn [vbody_run bind].
      intros H. rewrite (IH _ _ _ H). reflexivity. }
    destruct (vloop (vcall_data up step p) 0 (v_cnt w) _) as [w2| |] eqn:EL; cbn [bind] in E; try discriminate.
    injection E as <- _. cbn. rewrite (G _ _ _ _ EL). reflexivity.
  Qed.
  (** Every call of the observable soon reads count_. *)
  Lemma to_count m c k : fits t (r_val m) (RC c) -> exists m1 d1 e1, goes m (call_code t Max (RC c) k) e1 m1 d1 /\ touches d1 = Some (QCount, false).
  Proof.
    destruct c as [o|o| |n|op]; intros F; try (exists m; eexists; exists []; split; [constructor|reflexivity]).
    cbn [fits] in F. destruct (published_ub t (r_val m) op) as [U FU]. destruct (published t (r_val m) op) as [p| |] eqn:E;
      [|destruct F; apply U; reflexivity|congruence].
    eexists _, _, _. split; [cbn [call_code]; unfold op_code; apply goes_one; reflexivity|]. rewrite E. reflexivity.
  Qed.
  Lemma race_count m a b i j m' es : i <> j -> alone t Max m a = Ok (m', es) -> r_cnt m' <> r_cnt m -> fits t (r_val m) (RC b) ->
    exists s w, rrun (rstart t Max m (two i j a (RC b))) s = ROk w /\ data_race w.
  Proof.
    intros N A C F. assert (IO : is_op a = false).
    { destruct a as [[o|o| |n|op]|o f]; try reflexivity. exfalso. apply C. exact (op_cnt _ _ _ _ A). }
    pose proof (call_goes t Max _ _ _ _ RStop A) as G. destruct (cnt_race _ _ _ _ _ G C) as (m1 & d1 & e1 & H & T).
    assert (V : r_val m1 = r_val m) by (apply (noupd_goes _ _ _ _ _ H); apply noupd_call; [exact Logic.I|exact IO]).
    rewrite <- V in F. destruct (to_count m1 b RStop F) as (m2 & d2 & e2 & H2 & T2).
    destruct (cut t Max m a (RC b) i j _ _ _ _ _ _ _ _ _ _ _ _ N H H2 (goes_here t _ _) (goes_here t _ _)) as (s & w & R & _ & E2 & E3 & _).
    exists s, w. split; [exact R|]. exists i, j, QCount, false. rewrite E2, E3. auto.
  Qed.
  Lemma race_fun m i j o f g : i <> j -> exists s w, rrun (rstart t Max m (two i j (RFun o f) (RFun o g))) s = ROk w /\ data_race w.
  Proof.
    intros N. exists [], (rstart t Max m (two i j (RFun o f) (RFun o g))). split; [reflexivity|]. exists i, j, (QFun o), true. split; [exact N|].
    cbn [rstart r_thr]. unfold two. rewrite !Nat.eqb_refl. destruct (Nat.eqb_spec j i); [congruence|]. split; reflexivity.
  Qed.
  Lemma race_fun_op fn st x mi p o l tl i j op q f : i <> j -> (length (p ++ o :: l) <= max_observers Max)%nat -> published t x op = Ok q ->
    exists s w, rrun (rstart t Max (RM x (map Some (p ++ o :: l) ++ tl) (length (p ++ o :: l)) mi fn st) (two i j (RFun o f) (RC (VOp op)))) s = ROk w /\ data_race w.
  Proof.
    intros N L EP. destruct (to_has t Max fn st x mi p o l tl op q RStop L EP) as (e & m & d & H & _).
    destruct (cut t Max _ (RFun o f) (RC (VOp op)) i j _ _ _ _ _ _ _ _ _ _ _ _ N (goes_here t _ _) H (goes_here t _ _) (goes_here t _ _)) as (s & w & R & _ & E2 & E3 & _).
    exists s, w. split; [exact R|]. exists i, j, (QFun o), false. rewrite E2, E3. split; [exact N|]. split; reflexivity.
  Qed.
End Races.
