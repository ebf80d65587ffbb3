(** Schedules of the shared observable under which calls go wrong. *)
From Verif Require Export ObsShareProofs2.

Section Wrong.
  Variable self : addr.
  Variable Max : Z.
  Notation sstep := (sstep self Max).
  Notation smove := (smove self Max).
  Notation srun := (srun self Max).
  Notation steps := (steps self Max).
  Notation cap := (max_observers Max).

  Lemma reach_repr on_data on_disc w : reaches self Max on_data on_disc w ->
    exists tl, mem_of w = Sh (map Some (members (w_log w)) ++ tl) (length (members (w_log w))) false /\
      (length (members (w_log w)) + length tl = cap)%nat /\ NoDup (members (w_log w)).
  Proof.
    intros R. destruct (reach_inv self Max on_data on_disc w R) as [I J]. destruct (i_repr _ _ _ I) as [tl E].
    exists tl. unfold mem_of. rewrite E, J, (i_cnt _ _ _ I). split; [reflexivity|]. split; [|apply (i_nodup _ _ _ I)].
    rewrite <- (i_len _ _ _ I), E, app_length, map_length. reflexivity.
  Qed.

  Lemma two_t t u a b : two t u a b t = [a].
  Proof. unfold two. rewrite Nat.eqb_refl. reflexivity. Qed.
  Lemma two_u t u a b : t <> u -> two t u a b u = [b].
  Proof. intros N. unfold two. destruct (Nat.eqb_spec u t); [congruence|]. rewrite Nat.eqb_refl. reflexivity. Qed.
  Lemma two_else t u a b k : k <> t -> k <> u -> two t u a b k = [].
  Proof. intros N M. unfold two. destruct (Nat.eqb_spec k t); [congruence|]. destruct (Nat.eqb_spec k u); congruence. Qed.

  (** Two calls cut into pieces: [t] gets to [pa], [u] to [pb], [t] finishes, [u] finishes. *)
  Lemma cut m a b t u m1 pa ea m2 pb eb m3 pc ec m4 pd ed : t <> u ->
    steps m (begin_call a) m1 pa ea -> steps m1 (begin_call b) m2 pb eb ->
    steps m2 pa m3 pc ec -> steps m3 pb m4 pd ed ->
    exists s w, srun (sstart m (two t u a b)) s = Ok w /\ s_mem w = m4 /\
      s_thr w t = STh [] pc /\ s_thr w u = STh [] pd /\ (forall k, k <> t -> k <> u -> s_thr w k = STh [] SIdle) /\
      s_log w = map (pair t) ea ++ map (pair u) eb ++ map (pair t) ec ++ map (pair u) ed.
  Proof.
    intros N H1 H2 H3 H4.
    destruct (run_call self Max _ _ _ _ _ t (sstart m (two t u a b)) [] H1 eq_refl) as (k1 & w1 & R1 & [A1 A2 A3 A4]);
      [cbn; rewrite two_t; reflexivity|].
    destruct (run_call self Max _ _ _ _ _ u w1 [] H2 A1) as (k2 & w2 & R2 & [B1 B2 B3 B4]);
      [rewrite A3 by auto; cbn; rewrite two_u by exact N; reflexivity|].
    destruct (run_steps self Max _ _ _ _ _ t H3 w2 B1) as (k3 & w3 & R3 & [C1 C2 C3 C4]); [rewrite B3, A2 by auto; reflexivity|].
    destruct (run_steps self Max _ _ _ _ _ u H4 w3 C1) as (k4 & w4 & R4 & [D1 D2 D3 D4]); [rewrite C3, B2 by auto; reflexivity|].
    exists (repeat t k1 ++ repeat u k2 ++ repeat t k3 ++ repeat u k4), w4.
    split; [rewrite (srun_then self Max _ _ _ _ R1), (srun_then self Max _ _ _ _ R2), (srun_then self Max _ _ _ _ R3); exact R4|].
    split; [exact D1|].
    split; [rewrite D3, C2, B3, A2 by auto; reflexivity|].
    split; [rewrite D2, C3, B2 by auto; reflexivity|].
    split; [intros k K1 K2; rewrite D3, C3, B3, A3 by auto; cbn; rewrite two_else by auto; reflexivity|].
    rewrite D4, C4, B4, A4, <- !app_assoc. reflexivity.
  Qed.
  Lemma cut_done t u w : s_thr w t = STh [] SIdle -> s_thr w u = STh [] SIdle ->
    (forall k, k <> t -> k <> u -> s_thr w k = STh [] SIdle) -> all_returned w.
  Proof.
    intros A B C k. destruct (Nat.eq_dec k t) as [->|]; [exact A|]. destruct (Nat.eq_dec k u) as [->|]; [exact B|]. apply C; assumption.
  Qed.

  Lemma steps_to_count l tl ins o : (length l < cap)%nat -> ~ In o l ->
    steps (Sh (map Some l ++ tl) (length l) ins) (SAdd o) (Sh (map Some l ++ tl) (length l) ins) (SCount o) [].
  Proof.
    intros L N. eapply steps_then; [discriminate|cbn [ObsShareModel.sstep m_cnt]; replace (cap <=? length l)%nat with false by lia; reflexivity|].
    eapply steps_then; [discriminate|reflexivity|]. cbn [m_cnt].
    pose proof (contains_spec l [] tl o) as C. cbn [app length] in C.
    destruct (in_dec Pos.eq_dec o l) as [H|_]; [contradiction|].
    apply (steps_scan self Max (Sh (map Some l ++ tl) (length l) ins) o (length l) 0 false C).
  Qed.
  Lemma put_end l x tl o : put_slot (map Some l ++ x :: tl) (length l) (Some o) = Ok (map Some (l ++ [o]) ++ tl).
  Proof. rewrite <- (map_length (@Some addr) l) at 1. rewrite put_app, map_app, <- app_assoc. reflexivity. Qed.
  Lemma len_snoc {A} (l : list A) x : length (l ++ [x]) = S (length l).
  Proof. rewrite app_length. cbn. lia. Qed.

  (** What calls made later by one thread show of the set of observers. *)
  Lemma alone_notify l tl v : (length l <= cap)%nat ->
    exists m', alone self Max (Sh (map Some l ++ tl) (length l) false) (Notify v) = Ok (m', map (fun o => Data self o v) l ++ [Ret (Notify v) ok]).
  Proof.
    intros L. unfold alone. cbn [ObserverModel.run w_slots w_cnt w_inside w_log m_slots m_cnt m_inside].
    replace (cap <? length l)%nat with false by lia.
    match goal with |- context [loop (fun i => call_data self ?f ?st i v) 0 _ ?w] =>
      pose proof (quiet_data_loop self f (fun _ _ => Return) st v l (fun _ _ _ => eq_refl) [] tl w eq_refl) as H end.
    cbn [length] in H. rewrite H. cbn. eexists. reflexivity.
  Qed.
  Lemma alone_remove_none l tl o : (length l <= cap)%nat -> ~ In o l ->
    exists m', alone self Max (Sh (map Some l ++ tl) (length l) false) (Remove o) = Ok (m', [Ret (Remove o) not_found]).
  Proof.
    intros L N. unfold alone. cbn [ObserverModel.run w_slots w_cnt w_inside w_log m_slots m_cnt m_inside].
    destruct (remove_repr Max l tl o L) as (g & -> & _). cbn. unfold remove_answer.
    destruct (in_dec Pos.eq_dec o l) as [H|_]; [contradiction|]. eexists. reflexivity.
  Qed.

  Lemma lost_add l x tl t u o1 o2 : t <> u -> (length l < cap)%nat -> ~ In o1 l -> ~ In o2 l ->
    exists s w, srun (sstart (Sh (map Some l ++ x :: tl) (length l) false) (two t u (Add o1) (Add o2))) s = Ok w /\
      all_returned w /\ s_log w = [(t, Ret (Add o1) ok); (u, Ret (Add o2) ok)] /\
      s_mem w = Sh (map Some (l ++ [o2]) ++ tl) (length (l ++ [o2])) false.
  Proof.
    intros N L N1 N2. set (m := Sh (map Some l ++ x :: tl) (length l) false).
    assert (G : forall o, ~ In o l -> steps m (begin_call (Add o)) m (SBump o (length l)) []).
    { intros o NO. eapply steps_trans; [apply steps_to_count; assumption|]. apply steps_one; [discriminate|reflexivity]. }
    assert (P : forall o y n, steps (Sh (map Some l ++ y :: tl) n false) (SBump o (length l)) (Sh (map Some (l ++ [o]) ++ tl) (S (length l)) false) SIdle [Ret (Add o) ok]).
    { intros o y n. eapply steps_then; [discriminate|reflexivity|]. apply steps_one; [discriminate|]. cbn. rewrite put_end. reflexivity. }
    pose proof (P o1 x (length l)) as P1. fold m in P1.
    assert (P2 := P o2 (Some o1) (S (length l))).
    replace (map Some l ++ Some o1 :: tl) with (map Some (l ++ [o1]) ++ tl) in P2 by (rewrite map_app, <- app_assoc; reflexivity).
    destruct (cut m _ _ t u _ _ _ _ _ _ _ _ _ _ _ _ N (G o1 N1) (G o2 N2) P1 P2) as (s & w & R & E1 & E2 & E3 & E4 & E5).
    exists s, w. split; [exact R|]. split; [apply (cut_done t u); assumption|]. split; [exact E5|].
    rewrite E1, len_snoc. reflexivity.
  Qed.

  Lemma overflow l x t u o1 o2 : t <> u -> S (length l) = cap -> ~ In o1 l -> ~ In o2 l ->
    exists s, srun (sstart (Sh (map Some l ++ [x]) (length l) false) (two t u (Add o1) (Add o2))) s = UB.
  Proof.
    intros N L N1 N2. set (m := Sh (map Some l ++ [x]) (length l) false).
    assert (G : forall o, ~ In o l -> steps m (begin_call (Add o)) m (SCount o) []) by (intros o NO; apply steps_to_count; [lia|exact NO]).
    set (m1 := Sh (map Some (l ++ [o2]) ++ []) (S (length l)) false).
    assert (P1 : steps m (begin_call (Add o2)) m1 SIdle [Ret (Add o2) ok]).
    { eapply steps_trans; [apply (G o2 N2)|]. eapply steps_then; [discriminate|reflexivity|]. eapply steps_then; [discriminate|reflexivity|].
      apply steps_one; [discriminate|]. cbn. rewrite put_end. reflexivity. }
    assert (P2 : steps m1 (SCount o1) (Sh (map Some (l ++ [o2]) ++ []) (S (S (length l))) false) (SPut o1 (S (length l))) []).
    { eapply steps_then; [discriminate|reflexivity|]. apply steps_one; [discriminate|reflexivity]. }
    destruct (cut m _ _ t u _ _ _ _ _ _ _ _ _ _ _ _ N (G o1 N1) P1 P2 (steps_nil self Max _ _)) as (s & w & R & E1 & E2 & E3 & E4 & E5).
    exists (s ++ [t]). rewrite (srun_then self Max _ _ _ _ R). cbn [ObsShareModel.srun].
    rewrite (smove_in self Max w t (SPut o1 (S (length l)))); [|rewrite E2; reflexivity|discriminate].
    rewrite E1. cbn [ObsShareModel.sstep m_slots]. unfold put_slot.
    replace (nth_error (map Some (l ++ [o2]) ++ []) (S (length l))) with (@None ptr); [reflexivity|].
    symmetry. apply nth_error_None. rewrite app_nil_r, map_length, len_snoc. lia.
  Qed.

  (** Up to the [i]-th delivery of a notification. *)
  Lemma steps_deliver l1 l2 tl v : (length (l1 ++ l2) <= cap)%nat -> l2 <> [] ->
    steps (Sh (map Some (l1 ++ l2) ++ tl) (length (l1 ++ l2)) false) (SNote v)
          (Sh (map Some (l1 ++ l2) ++ tl) (length (l1 ++ l2)) true) (SCall v (length l1) (length (l1 ++ l2)))
          (map (fun o => Data self o v) l1).
  Proof.
    intros L NE. eapply steps_then; [discriminate|cbn [ObsShareModel.sstep m_cnt]; replace (cap <? length (l1 ++ l2))%nat with false by lia; reflexivity|].
    eapply steps_then; [discriminate|reflexivity|]. eapply steps_then; [discriminate|reflexivity|].
    eapply steps_then; [discriminate|reflexivity|]. cbn [m_cnt m_slots].
    set (m := Sh (map Some (l1 ++ l2) ++ tl) (length (l1 ++ l2)) true).
    assert (G : forall k p q, l1 = p ++ q -> k = length (l1 ++ l2) ->
                steps m (call_next v (length p) k) m (call_next v (length (p ++ q)) k) (map (fun o => Data self o v) q)).
    { intros k p q. revert p. induction q as [|o q IH]; intros p E EK; [rewrite app_nil_r; constructor|].
      specialize (IH (p ++ [o])). rewrite <- app_assoc in IH. specialize (IH E EK). rewrite len_snoc in IH.
      change (map (fun o => Data self o v) (o :: q)) with ([Data self o v] ++ map (fun o => Data self o v) q).
      unfold call_next at 1. replace (length p =? k)%nat with false by (subst k; rewrite app_length, E, app_length; cbn; lia).
      econstructor; [discriminate| |exact IH].
      cbn [ObsShareModel.sstep m m_slots]. rewrite E, <- app_assoc, map_app, <- app_assoc. cbn [map app].
      rewrite <- (map_length (@Some addr) p) at 1. rewrite slot_app. cbn. reflexivity. }
    specialize (G (length (l1 ++ l2)) [] l1 eq_refl eq_refl). cbn [length app] in G.
    unfold call_next at 2 in G. replace (length l1 =? length (l1 ++ l2))%nat with false in G; [exact G|].
    rewrite app_length. destruct l2; [congruence|cbn; lia].
  Qed.
  Lemma steps_finish l1 l2 tl n v : l2 <> [] ->
    steps (Sh (map Some (l1 ++ l2) ++ tl) n true) (SCall v (length l1) (length l1 + length l2))
          (Sh (map Some (l1 ++ l2) ++ tl) n false) SIdle (map (fun o => Data self o v) l2 ++ [Ret (Notify v) ok]).
  Proof.
    intros NE. pose proof (steps_calls self Max (Sh (map Some (l1 ++ l2) ++ tl) n true) v l2 l1 tl eq_refl) as H.
    unfold call_next in H. replace (length l1 =? length l1 + length l2)%nat with false in H by (destruct l2; [congruence|cbn; lia]).
    eapply steps_app; [exact H|]. apply steps_one; [discriminate|reflexivity].
  Qed.

  (** std::remove of an observer that is there once: what it leaves. *)
  Lemma compact_shift o tl rest : forall done x, ~ In o rest ->
    compact (map Some done ++ Some x :: map Some rest ++ tl) (length done) (S (length done)) (length rest) o
    = Ok (map Some (done ++ rest) ++ Some (last rest x) :: tl, (length done + length rest)%nat).
  Proof.
    induction rest as [|y rest IH]; intros done x N; cbn [length compact map app].
    - rewrite app_nil_r. replace (length done + 0)%nat with (length done) by lia. reflexivity.
    - replace (slot (map Some done ++ Some x :: Some y :: map Some rest ++ tl) (S (length done))) with (Ok (Some y)).
      2:{ replace (map Some done ++ Some x :: Some y :: map Some rest ++ tl) with ((map Some done ++ [Some x]) ++ Some y :: map Some rest ++ tl)
            by (rewrite <- app_assoc; reflexivity).
          replace (S (length done)) with (length (map Some done ++ [Some x])) by (rewrite len_snoc, map_length; reflexivity).
          rewrite slot_app. reflexivity. }
      cbn [bind points_to]. destruct (Pos.eqb_spec y o) as [->|NY]; [exfalso; apply N; left; reflexivity|].
      rewrite <- (map_length (@Some addr) done) at 1. rewrite put_app. cbn [bind].
      specialize (IH (done ++ [y]) y). rewrite len_snoc, map_app, <- app_assoc in IH. cbn [map app] in IH.
      rewrite IH by (intros H; apply N; right; exact H). rewrite <- app_assoc. cbn [app].
      replace (S (length done) + length rest)%nat with (length done + S (length rest))%nat by lia.
      f_equal. f_equal. f_equal. f_equal. f_equal. destruct rest as [|z rest]; [reflexivity|].
      change (last (y :: z :: rest) x) with (last (z :: rest) x). clear. revert z. induction rest as [|a rest IH]; intros z; [reflexivity|]. apply (IH a).
  Qed.
  Lemma remove_steps l1 l2 tl o ins : (length (l1 ++ o :: l2) <= cap)%nat -> ~ In o l1 -> ~ In o l2 ->
    steps (Sh (map Some (l1 ++ o :: l2) ++ tl) (length (l1 ++ o :: l2)) ins) (SRem o)
          (Sh (map Some (l1 ++ l2) ++ Some (last l2 o) :: tl) (length (l1 ++ l2)) ins) SIdle [Ret (Remove o) ok].
  Proof.
    intros L N1 N2. eapply steps_then; [discriminate|cbn [ObsShareModel.sstep m_cnt]; replace (cap <? length (l1 ++ o :: l2))%nat with false by lia; reflexivity|].
    assert (LP : length (l1 ++ o :: l2) = S (length (l1 ++ l2))) by (rewrite !app_length; cbn; lia).
    eapply steps_then; [discriminate|cbn [ObsShareModel.sstep m_cnt]; replace (length (l1 ++ o :: l2) =? 0)%nat with false by lia; reflexivity|].
    eapply steps_trans.
    - apply steps_remove. unfold std_remove.
      destruct (find_spec (l1 ++ o :: l2) [] tl o) as [[H _]|(p & q & H1 & H2 & H3)]; [exfalso; apply H; apply in_or_app; right; left; reflexivity|].
      cbn [app length Nat.add] in H3.
      assert (p = l1).
      { clear - H1 H2 N1. revert p H1 H2 N1. induction l1 as [|a l1 IH]; intros p H1 H2 N1; destruct p as [|b p]; cbn in H1.
        - reflexivity.
        - injection H1 as -> _. exfalso. apply H2. left. reflexivity.
        - injection H1 as -> _. exfalso. apply N1. left. reflexivity.
        - injection H1 as -> H1. f_equal. apply IH; [exact H1|intros X; apply H2; right; exact X|intros X; apply N1; right; exact X]. }
      subst p. rewrite H3. cbn [bind]. replace (length l1 =? length (l1 ++ o :: l2))%nat with false by (rewrite app_length; cbn; lia).
      replace (length (l1 ++ o :: l2) - S (length l1))%nat with (length l2) by (rewrite app_length; cbn; lia).
      rewrite (map_app (@Some addr) l1), <- app_assoc. cbn [map app]. apply compact_shift, N2.
    - rewrite <- app_length. eapply steps_then; [discriminate|cbn [ObsShareModel.sstep m_cnt];
        replace (length (l1 ++ o :: l2) =? length (l1 ++ l2))%nat with false by lia; reflexivity|].
      apply steps_one; [discriminate|reflexivity].
  Qed.

  Lemma late_call p o tl t u v : t <> u -> NoDup (p ++ [o]) -> (length (p ++ [o]) <= cap)%nat ->
    exists s w, srun (sstart (Sh (map Some (p ++ [o]) ++ tl) (length (p ++ [o])) false) (two t u (Notify v) (Remove o))) s = Ok w /\
      all_returned w /\ s_log w = map (pair t) (map (fun x => Data self x v) p) ++
                              [(u, Ret (Remove o) ok); (t, Data self o v); (t, Ret (Notify v) ok)].
  Proof.
    intros N ND L. set (m := Sh (map Some (p ++ [o]) ++ tl) (length (p ++ [o])) false).
    assert (NP : ~ In o p) by (apply NoDup_remove_2 in ND; rewrite app_nil_r in ND; exact ND).
    pose proof (steps_deliver p [o] tl v L ltac:(discriminate)) as H1. fold m in H1.
    pose proof (remove_steps p [] tl o true L NP (fun x => x)) as H2. rewrite app_nil_r in H2. cbn [last] in H2.
    pose proof (steps_finish p [o] tl (length p) v ltac:(discriminate)) as H3.
    replace (length p + length [o])%nat with (length (p ++ [o])) in H3 by (rewrite app_length; reflexivity).
    replace (map Some (p ++ [o]) ++ tl) with (map Some p ++ Some o :: tl) in H3 by (rewrite map_app, <- app_assoc; reflexivity).
    destruct (cut m (Notify v) (Remove o) t u _ _ _ _ _ _ _ _ _ _ _ _ N H1 H2 H3 (steps_nil self Max _ _)) as (s & w & R & E1 & E2 & E3 & E4 & E5).
    exists s, w. split; [exact R|]. split; [apply (cut_done t u); assumption|]. rewrite E5. cbn. reflexivity.
  Qed.

  Lemma missed o1 o2 l tl t u v : t <> u -> NoDup (o1 :: o2 :: l) -> l <> [] -> (length (o1 :: o2 :: l) <= cap)%nat ->
    exists s w, srun (sstart (Sh (map Some (o1 :: o2 :: l) ++ tl) (length (o1 :: o2 :: l)) false) (two t u (Notify v) (Remove o1))) s = Ok w /\
      all_returned w /\
      s_log w = (t, Data self o1 v) :: (u, Ret (Remove o1) ok) :: map (pair t) (map (fun x => Data self x v) (l ++ [last l o2]) ++ [Ret (Notify v) ok]) /\
      s_mem w = Sh (map Some (o2 :: l) ++ Some (last l o2) :: tl) (length (o2 :: l)) false.
  Proof.
    intros N ND NE L. set (m := Sh (map Some (o1 :: o2 :: l) ++ tl) (length (o1 :: o2 :: l)) false).
    assert (NI : ~ In o1 (o2 :: l)) by (inversion ND; assumption).
    pose proof (steps_deliver [o1] (o2 :: l) tl v L ltac:(discriminate)) as H1. cbn [app] in H1. fold m in H1.
    pose proof (remove_steps [] (o2 :: l) tl o1 true L (fun x => x) NI) as H2. cbn [app] in H2.
    assert (LA : last (o2 :: l) o1 = last l o2).
    { destruct l as [|z l']; [congruence|]. change (last (o2 :: z :: l') o1) with (last (z :: l') o1). clear.
      revert z. induction l' as [|a l' IH]; intros z; [reflexivity|]. apply (IH a). }
    rewrite LA in H2.
    pose proof (steps_finish [o2] (l ++ [last l o2]) tl (length (o2 :: l)) v ltac:(destruct l; discriminate)) as H3.
    replace (length [o2] + length (l ++ [last l o2]))%nat with (length (o1 :: o2 :: l)) in H3 by (rewrite app_length; cbn; lia).
    replace (map Some ([o2] ++ l ++ [last l o2]) ++ tl) with (map Some (o2 :: l) ++ Some (last l o2) :: tl) in H3
      by (cbn; rewrite map_app, <- app_assoc; reflexivity).
    destruct (cut m (Notify v) (Remove o1) t u _ _ _ _ _ _ _ _ _ _ _ _ N H1 H2 H3 (steps_nil self Max _ _)) as (s & w & R & E1 & E2 & E3 & E4 & E5).
    exists s, w. split; [exact R|]. split; [apply (cut_done t u); assumption|]. split; [|exact E1].
    rewrite E5. cbn [map app]. rewrite app_nil_r. reflexivity.
  Qed.

  (** Both threads deliver at once. *)
  Lemma both l tl t u a b : t <> u -> (length l <= cap)%nat ->
    exists s w, srun (sstart (Sh (map Some l ++ tl) (length l) false) (two t u (Notify a) (Notify b))) s = Ok w /\ all_returned w /\
      s_log w = map (pair t) (map (fun o => Data self o a) l) ++
                map (pair u) (map (fun o => Data self o b) l ++ [Ret (Notify b) ok]) ++ [(t, Ret (Notify a) ok)].
  Proof.
    intros N L. set (m := fun i => Sh (map Some l ++ tl) (length l) i).
    assert (E : forall v, steps (m false) (begin_call (Notify v)) (m false) (SEnter v) []).
    { intros v. eapply steps_then; [discriminate|cbn [ObsShareModel.sstep begin_call m m_cnt]; replace (cap <? length l)%nat with false by lia; reflexivity|].
      apply steps_one; [discriminate|reflexivity]. }
    assert (D : forall v i, steps (m i) (SEnter v) (m true) (SLeave v) (map (fun o => Data self o v) l)).
    { intros v i. eapply steps_then; [discriminate|reflexivity|]. eapply steps_then; [discriminate|reflexivity|].
      apply (steps_calls self Max (m true) v l [] tl eq_refl). }
    assert (F : forall v i, steps (m i) (SLeave v) (m false) SIdle [Ret (Notify v) ok]) by (intros v i; apply steps_one; [discriminate|reflexivity]).
    destruct (cut (m false) (Notify a) (Notify b) t u _ _ _ _ _ _ _ _ _ _ _ _ N (E a) (E b) (D a false)
              (steps_app _ _ _ _ _ _ _ _ _ _ (D b true) (F b true))) as (s & w & R & E1 & E2 & E3 & E4 & E5).
    destruct (run_steps self Max _ _ _ _ _ t (F a false) w E1) as (k & w' & R' & [A1 A2 A3 A4]); [rewrite E2; reflexivity|].
    exists (s ++ repeat t k), w'. split; [rewrite (srun_then self Max _ _ _ _ R); exact R'|]. split.
    - apply (cut_done t u); [rewrite A2, E2; reflexivity|rewrite A3 by auto; exact E3|]. intros j J1 J2. rewrite A3 by auto. apply E4; assumption.
    - rewrite A4, E5. cbn [map app]. rewrite <- !app_assoc. reflexivity.
  Qed.

  (** ** Races *)
  Lemma writes_count m pc m' pc' es : sstep m pc = Ok (m', pc', es) -> access pc <> Some (PCount, true) -> m_cnt m' = m_cnt m.
  Proof.
    intros E N. destruct pc; cbn [access] in N; try congruence; cbn in E;
      repeat (match type of E with
              | (if ?c then _ else _) = _ => destruct c
              | match ?x with _ => _ end = _ => destruct x; try discriminate E
              | bind ?x _ = _ => destruct x; cbn [bind] in E; try discriminate E end); injection E as <- _ _; reflexivity.
  Qed.
  Lemma count_race m pc m' pc' es : steps m pc m' pc' es -> m_cnt m' <> m_cnt m ->
    exists m1 pc1 e1, steps m pc m1 pc1 e1 /\ access pc1 = Some (PCount, true).
  Proof.
    intros H. induction H as [m pc|m pc m1 pc1 e1 m2 pc2 e2 N E H IH]; intros C; [congruence|].
    assert (D : access pc = Some (PCount, true) \/ access pc <> Some (PCount, true)).
    { destruct (access pc) as [[[| |i] [|]]|]; (left; reflexivity) || (right; discriminate). }
    destruct D as [D|D]; [exists m, pc, []; split; [constructor|exact D]|].
    destruct IH as (m3 & pc3 & e3 & S3 & A3); [rewrite (writes_count _ _ _ _ _ E D); exact C|].
    exists m3, pc3, (e1 ++ e3). split; [econstructor; eassumption|exact A3].
  Qed.
  Lemma begin_count c : access (begin_call c) = Some (PCount, false).
  Proof. destruct c; reflexivity. Qed.
  Lemma race_count m a b t u m' es : t <> u -> alone self Max m a = Ok (m', es) -> m_cnt m' <> m_cnt m ->
    exists s w, srun (sstart m (two t u a b)) s = Ok w /\ data_race w.
  Proof.
    intros N E C. apply steps_alone in E. destruct (count_race _ _ _ _ _ E C) as (m1 & pc1 & e1 & H & A).
    destruct (cut m a b t u _ _ _ _ _ _ _ _ _ _ _ _ N H (steps_nil self Max m1 (begin_call b)) (steps_nil self Max m1 pc1) (steps_nil self Max m1 (begin_call b)))
      as (s & w & R & E1 & E2 & E3 & _). exists s, w. split; [exact R|].
    exists t, u, PCount, false. rewrite E2, E3. split; [exact N|]. split; [exact A|apply begin_count].
  Qed.
  Lemma race_inside l tl a b t u : t <> u -> (length l <= cap)%nat ->
    exists s w, srun (sstart (Sh (map Some l ++ tl) (length l) false) (two t u (Notify a) (Notify b))) s = Ok w /\ data_race w.
  Proof.
    intros N L. set (m := Sh (map Some l ++ tl) (length l) false).
    assert (E : forall v, steps m (begin_call (Notify v)) m (SInside v) []).
    { intros v. apply steps_one; [discriminate|]. cbn [ObsShareModel.sstep begin_call m m_cnt]. replace (cap <? length l)%nat with false by lia. reflexivity. }
    assert (E' : steps m (begin_call (Notify a)) m (SEnter a) []).
    { eapply steps_trans; [apply E|]. apply steps_one; [discriminate|reflexivity]. }
    destruct (cut m (Notify a) (Notify b) t u _ _ _ _ _ _ _ _ _ _ _ _ N E' (E b) (steps_nil self Max m (SEnter a)) (steps_nil self Max m (SInside b)))
      as (s & w & R & E1 & E2 & E3 & _). exists s, w. split; [exact R|].
    exists t, u, PInside, false. rewrite E2, E3. split; [exact N|]. split; reflexivity.
  Qed.
End Wrong.
