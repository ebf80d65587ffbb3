(** Modules constructed and destroyed while other threads use the mediator. *)
From Verif Require Export MedShareProofs4.
From Verif Require ObserverProofs1.

Section Wrong.
  Variable hash : string -> Z.
  Variable enc : mty -> Z -> list Z.
  Variable desc : addr -> mdesc.
  Notation gstep := (gstep hash desc).
  Notation grun := (grun hash enc desc).
  Notation gbegin := (gbegin hash enc desc).
  Notation gsteps := (gsteps hash desc).
  Notation good := (good_send hash enc desc).
  Notation seen := (seen hash enc desc).
  Notation msg := (msg_of hash enc).
  Notation recvs := (recvs enc desc).
  Notation told := (told hash enc desc).
  Variable t u : nat.
  Hypothesis N : t <> u.
  Variable l : list addr.

  Lemma one_gone a : remove_first a [a] = [].
  Proof. cbn. destruct (Pos.eq_dec a a); [reflexivity|congruence]. Qed.
  Lemma good_mono l' c D v : incl l l' -> good l c D v -> good l' c D v.
  Proof. intros H (A & B & C & E). split; [exact A|]. split; [exact B|]. split; [intros s Hs; apply H, C, Hs|exact E]. Qed.
  Lemma by_t_step log es : by_gthread t (log ++ map (pair t) es) = by_gthread t log ++ es.
  Proof. rewrite by_gthread_app, by_gthread_own. reflexivity. Qed.
  Lemma by_u_step log es : by_gthread t (log ++ map (pair u) es) = by_gthread t log.
  Proof. rewrite by_gthread_app, by_gthread_other by auto. apply app_nil_r. Qed.

  (** Two constructors at once: one of the modules is not registered. *)
  Lemma lost x tl a1 a2 c D v : good (l ++ [a1; a2]) c D v ->
    exists s w, grun (gstart (GM (map Some l ++ x :: tl) (length l) l []) (gtwo t u [Construct a1; c] [Construct a2])) s = Ok w /\ all_back w /\
      g_objs (g_mem w) = l ++ [a1; a2] /\ g_part (g_mem w) = [] /\
      by_gthread u (g_log w) = [Begin (Construct a2); End (Construct a2)] /\
      by_gthread t (g_log w) = [Begin (Construct a1); End (Construct a1)] ++ seen (l ++ [a2]) c.
  Proof.
    intros G. set (m0 := GM (map Some l ++ x :: tl) (length l) l []).
    pose proof (got_start hash enc desc t u N m0 [Construct a1; c] [Construct a2]) as R.
    assert (A : forall o p a, gsteps (GM (map Some l ++ x :: tl) (length l) o p) (GNew a) (GM (map Some l ++ x :: tl) (length l) (o ++ [a]) (p ++ [a])) (GBump a (length l)) []).
    { intros o p a. eapply gsteps_then; [discriminate|reflexivity|]. apply gsteps_one; [discriminate|reflexivity]. }
    assert (B : forall y n o p a, gsteps (GM (map Some l ++ y :: tl) n o p) (GBump a (length l)) (GM (map Some (l ++ [a]) ++ tl) (S (length l)) o (remove_first a p)) GIdle [End (Construct a)]).
    { intros y n o p a. eapply gsteps_then; [discriminate|reflexivity|]. eapply gsteps_then; [discriminate|cbn; rewrite put_next; reflexivity|].
      apply gsteps_one; [discriminate|reflexivity]. }
    eapply got_t_call in R; [|exact N|apply A]. eapply got_u_call in R; [|exact N|apply A].
    eapply got_t in R; [|exact N|apply B].
    replace (map Some (l ++ [a1]) ++ tl) with (map Some l ++ Some a1 :: tl) in R by (rewrite map_app, <- app_assoc; reflexivity).
    eapply got_u in R; [|exact N|apply B].
    replace (remove_first a2 (remove_first a1 (([] ++ [a1]) ++ [a2]))) with (@nil positive) in R
      by (cbn; destruct (Pos.eq_dec a1 a1); [cbn; destruct (Pos.eq_dec a2 a2); [reflexivity|congruence]|congruence]).
    replace ((l ++ [a1]) ++ [a2]) with (l ++ [a1; a2]) in R by (rewrite <- app_assoc; reflexivity).
    match type of R with got_to _ _ _ _ _ _ _ _ ?m _ _ _ =>
      destruct (gsteps_send hash enc desc m (l ++ [a2]) tl (l ++ [a1; a2]) c D v G (incl_refl _) eq_refl) as (es & H & E) end.
    { cbn [g_cnt]. rewrite snoc_length. reflexivity. }
    { cbn [g_objs]. intros y Hy. apply in_app_or in Hy. apply in_or_app. cbn in *. tauto. }
    { cbn. auto. }
    eapply got_t_call in R; [|exact N|exact H]. destruct (got_done _ _ _ _ _ _ _ _ _ _ R) as (s & w & RW & AB & EM & EW).
    exists s, w. split; [exact RW|]. split; [exact AB|]. rewrite EM, EW. cbn [g_objs g_part]. split; [reflexivity|]. split; [reflexivity|].
    rewrite E. split.
    - rewrite !by_gthread_app, !by_gthread_own, !by_gthread_other by auto. reflexivity.
    - rewrite !by_gthread_app, !by_gthread_own, !by_gthread_other by auto. reflexivity.
  Qed.

  (** A message for a module whose class is not constructed yet. *)
  Lemma too_early x tl a c D v : good l c D v -> ~ In a l -> wants desc D a = true ->
    exists s, grun (gstart (GM (map Some l ++ x :: tl) (length l) l []) (gtwo t u [c] [Construct a])) s = UB.
  Proof.
    intros G HA W. set (m0 := GM (map Some l ++ x :: tl) (length l) l []).
    pose proof (got_start hash enc desc t u N m0 [c] [Construct a]) as R.
      eapply got_u_call in R; [|exact N|apply (gsteps_placed hash desc a l x tl l [])]. set (m1 := GM _ _ _ _) in R.
      assert (HS : forall s, sender c = Some s -> In s (g_objs m1)) by (intros s Hs; cbn; apply in_or_app; left; apply G, Hs).
      assert (ET : g_tab m1 = map Some l ++ Some a :: tl) by (cbn; rewrite map_app, <- app_assoc; reflexivity).
      eapply got_t_call in R; [|exact N|apply (start_pass hash enc desc l c D v G m1 HS l _ ET)].
      + eapply got_t in R; [|exact N|apply (to_call hash enc desc c D v m1 HS l a _ ET);
          [cbn; lia|cbn; apply in_or_app; right; left; reflexivity|apply (wants_id hash enc desc l c D v G a W)]].
        eapply got_stuck; [exact R|discriminate|]. apply (call_part hash enc desc l c D v G m1 HS l a _ ET); [cbn; apply in_or_app; right; left; reflexivity|left; reflexivity|].
        apply wants_recv, W.
      + cbn. lia.
      + cbn. intros y Hy. apply in_or_app. left. exact Hy.
      + cbn. intros y Hy [->|[]]. contradiction.
  Qed.
  (** A message for a module whose class is destroyed already. *)
  Lemma too_late tl a c D v : good l c D v -> In a l -> wants desc D a = true ->
    exists s, grun (gstart (GM (map Some l ++ tl) (length l) l []) (gtwo t u [c] [Destroy a])) s = UB.
  Proof.
    intros G HA W. set (m0 := GM (map Some l ++ tl) (length l) l []).
    pose proof (got_start hash enc desc t u N m0 [c] [Destroy a]) as R.
    assert (P : gsteps m0 (gbegin (Destroy a)) (GM (map Some l ++ tl) (length l) l [a]) (GFor a 0) [])
      by (apply gsteps_one; [discriminate|reflexivity]).
    eapply got_u_call in R; [|exact N|exact P]. set (m1 := GM _ _ _ _) in R.
    destruct (first_split desc a l HA) as (l1 & l2 & EL & N1).
    assert (HS : forall s, sender c = Some s -> In s (g_objs m1)) by apply G.
    assert (ET : g_tab m1 = map Some l1 ++ Some a :: map Some l2 ++ tl) by (cbn; rewrite EL, map_app, <- app_assoc; reflexivity).
    assert (LT : (length l1 < g_cnt m1)%nat) by (cbn; rewrite EL, app_length; cbn; lia).
    eapply got_t_call in R; [|exact N|apply (start_pass hash enc desc l c D v G m1 HS l1 _ ET)].
    - eapply got_t in R; [|exact N|apply (to_call hash enc desc c D v m1 HS l1 a _ ET LT HA), (wants_id hash enc desc l c D v G a W)].
      eapply got_stuck; [exact R|discriminate|]. apply (call_part hash enc desc l c D v G m1 HS l1 a _ ET HA); [left; reflexivity|].
      apply wants_recv, W.
    - lia.
    - cbn. rewrite EL. apply incl_appl, incl_refl.
    - cbn. intros y Hy [->|[]]. contradiction.
  Qed.

  (** A module destroyed that has been passed: the next one is left out. *)
  Lemma left_out z tl p1 x p2 y q c D v : l = (p1 ++ x :: p2) ++ y :: q -> NoDup l -> good l c D v -> sender c <> Some x ->
    exists s w, grun (gstart (GM (map Some l ++ z :: tl) (length l) l []) (gtwo t u [c; c] [Destroy x])) s = Ok w /\ all_back w /\
      by_gthread t (g_log w) = seen ((p1 ++ x :: p2) ++ q) c ++ seen (p1 ++ p2 ++ y :: q) c.
  Proof.
    intros EL ND G NS. set (m0 := GM (map Some l ++ z :: tl) (length l) l []). set (p := p1 ++ x :: p2) in *.
    assert (EX : l = p1 ++ x :: p2 ++ y :: q) by (rewrite EL; unfold p; rewrite <- app_assoc; reflexivity).
    assert (NX : ~ In x (p1 ++ p2 ++ y :: q)) by (rewrite EX in ND; apply NoDup_remove_2 in ND; exact ND).
    assert (N1 : ~ In x p1) by (intros H; apply NX, in_or_app; left; exact H).
    pose proof (got_start hash enc desc t u N m0 [c; c] [Destroy x]) as R.
    assert (HS : forall s, sender c = Some s -> In s (g_objs m0)) by apply G.
    eapply got_t_call in R; [|exact N|apply (start_pass hash enc desc l c D v G m0 HS p (map Some (y :: q) ++ z :: tl))].
    2:{ cbn [g_tab m0]. rewrite EL, map_app, <- app_assoc. reflexivity. }
    2:{ cbn [g_cnt m0]. rewrite EL, app_length. lia. }
    2:{ cbn [g_objs m0]. rewrite EL. apply incl_appl, incl_refl. }
    2:{ cbn. auto. }
    pose proof (gsteps_destroy hash enc desc x l [] p1 (p2 ++ y :: q) z tl N1) as HD. rewrite <- EX in HD. cbn [app] in HD. rewrite one_gone in HD.
    assert (EG : remove_first x l = p1 ++ p2 ++ y :: q) by (rewrite EX; apply remove_first_split, N1). rewrite EG in HD.
    eapply got_u_call in R; [|exact N|exact HD]. set (m1 := GM _ _ _ _) in R.
    assert (HS1 : forall s, sender c = Some s -> In s (g_objs m1)).
    { intros s Hs. cbn [g_objs m1]. pose proof (proj1 (proj2 (proj2 G)) s Hs) as H. rewrite EX in H. apply in_app_or in H.
      apply in_or_app. destruct H as [H|[->|H]]; [left; exact H|congruence|right; exact H]. }
    assert (LP : length p = length (p1 ++ p2 ++ [y])) by (unfold p; rewrite !app_length; cbn; lia).
    rewrite LP in R.
    assert (E1 : p1 ++ p2 ++ y :: q = (p1 ++ p2 ++ [y]) ++ q) by (rewrite <- !app_assoc; reflexivity).
    eapply got_t in R; [|exact N|apply (pass_end hash enc desc l c D v G m1 HS1 (p1 ++ p2 ++ [y]) q (Some (last (p2 ++ y :: q) x) :: None :: tl))].
    2:{ cbn [g_tab m1]. rewrite E1. reflexivity. }
    2:{ cbn [g_cnt m1]. rewrite E1. reflexivity. }
    2:{ cbn [g_objs m1]. rewrite E1. apply incl_appr, incl_refl. }
    2:{ cbn. auto. }
    assert (G1 : good (p1 ++ p2 ++ y :: q) c D v) by (destruct G as (G1 & G2 & _ & G4); repeat split; assumption).
    destruct (gsteps_send hash enc desc m1 (p1 ++ p2 ++ y :: q) (Some (last (p2 ++ y :: q) x) :: None :: tl) (p1 ++ p2 ++ y :: q) c D v G1
                (incl_refl _) eq_refl eq_refl (incl_refl _) ltac:(cbn; auto)) as (es & H & E).
    eapply got_t_call in R; [|exact N|exact H]. destruct (got_done _ _ _ _ _ _ _ _ _ _ R) as (s & w & RW & AB & EM & EW).
    exists s, w. split; [exact RW|]. split; [exact AB|]. rewrite EW, E, !by_t_step, by_u_step, by_t_step.
    rewrite (seen_eq hash enc desc l c D v G (p ++ q)). unfold MedShareProofs4.recvs. rewrite filter_app, map_app.
    cbn [by_gthread flat_map app]. rewrite <- !app_assoc. reflexivity.
  Qed.

  (** While a destructor moves the modules up, the last one is in the table twice. *)
  Lemma twice z tl p x q y c D v : l = p ++ x :: q ++ [y] -> ~ In x p -> ~ In x (q ++ [y]) -> good l c D v ->
    exists s w, grun (gstart (GM (map Some l ++ z :: tl) (length l) l []) (gtwo t u [c] [Destroy x])) s = Ok w /\ all_back w /\
      by_gthread t (g_log w) = seen (p ++ q ++ [y; y]) c.
  Proof.
    intros EL N1 N2 G. set (m0 := GM (map Some l ++ z :: tl) (length l) l []).
    pose proof (got_start hash enc desc t u N m0 [c] [Destroy x]) as R.
    pose proof (gsteps_taken hash desc x l [] p (q ++ [y]) (z :: tl) N1) as HD. rewrite <- EL in HD. cbn [app] in HD.
    assert (LA : last (q ++ [y]) x = y) by apply last_last.
    rewrite LA in HD. eapply got_u_call in R; [|exact N|exact HD].
    assert (ET : map Some (p ++ q ++ [y]) ++ Some y :: z :: tl = map Some (p ++ q ++ [y; y]) ++ z :: tl)
      by (rewrite !map_app, <- !app_assoc; reflexivity).
    set (m1 := GM (map Some (p ++ q ++ [y]) ++ Some y :: z :: tl) (length l) l [x]) in *.
    destruct (gsteps_send hash enc desc m1 (p ++ q ++ [y; y]) (z :: tl) l c D v G (incl_refl _) ET) as (es & H & E).
    { cbn [g_cnt m1]. rewrite EL, !app_length. cbn. rewrite app_length. cbn. lia. }
    { cbn [g_objs m1]. rewrite EL. intros b Hb. rewrite !in_app_iff in *. cbn in *. rewrite in_app_iff. cbn. tauto. }
    { cbn. intros b Hb [<-|[]]. rewrite !in_app_iff in Hb. rewrite in_app_iff in N2. cbn in *. tauto. }
    eapply got_t_call in R; [|exact N|exact H].
    assert (LL : length l = S (length (p ++ q ++ [y]))) by (rewrite EL, !app_length; cbn; rewrite app_length; cbn; lia).
    unfold m1 in R. rewrite LL in R. eapply got_u in R; [|exact N|apply (gsteps_close hash enc desc); reflexivity].
    destruct (got_done _ _ _ _ _ _ _ _ _ _ R) as (s & w & RW & AB & EM & EW).
    exists s, w. split; [exact RW|]. split; [exact AB|]. rewrite EW, by_u_step, E, by_t_step, by_u_step. reflexivity.
  Qed.

  (** The slot is read twice: a module gets the message it sends. *)
  Lemma own_back z tl p x s0 q v : l = p ++ x :: s0 :: q -> NoDup l -> good l (ModSend s0 v) (md_sends (desc s0)) v ->
    In (md_sends (desc s0)) (md_recvs (desc s0)) -> md_sends (desc x) <> md_sends (desc s0) ->
    exists s w, grun (gstart (GM (map Some l ++ z :: tl) (length l) l []) (gtwo t u [ModSend s0 v] [Destroy x])) s = Ok w /\ all_back w /\
      In (t, Recv s0 (md_sends (desc s0)) (enc (md_sends (desc s0)) v)) (g_log w).
  Proof.
    intros EL ND G HD NS. set (D := md_sends (desc s0)) in *. set (c := ModSend s0 v) in *. set (m0 := GM (map Some l ++ z :: tl) (length l) l []).
    assert (NX : ~ In x (p ++ s0 :: q)) by (rewrite EL in ND; apply NoDup_remove_2 in ND; exact ND).
    assert (N1 : ~ In x p) by (intros H; apply NX, in_or_app; left; exact H).
    pose proof (got_start hash enc desc t u N m0 [c] [Destroy x]) as R.
    assert (HS : forall s, sender c = Some s -> In s (g_objs m0)) by apply G.
    assert (ET : g_tab m0 = map Some p ++ Some x :: map Some (s0 :: q) ++ z :: tl) by (cbn [g_tab m0]; rewrite EL, map_app, <- app_assoc; reflexivity).
    assert (LT : (length p < g_cnt m0)%nat) by (cbn [g_cnt m0]; rewrite EL, app_length; cbn; lia).
    eapply got_t_call in R; [|exact N|apply (start_pass hash enc desc l c D v G m0 HS p _ ET)].
    2:{ lia. }
    2:{ cbn [g_objs m0]. rewrite EL. apply incl_appl, incl_refl. }
    2:{ cbn. auto. }
    eapply got_t in R; [|exact N|apply (to_call hash enc desc c D v m0 HS p x _ ET LT)].
    2:{ cbn [g_objs m0]. rewrite EL. apply in_or_app. right. left. reflexivity. }
    2:{ intros E. apply NS. apply (proj2 (proj2 (proj2 G))); [exists x; left; reflexivity|exact E]. }
    pose proof (gsteps_destroy hash enc desc x l [] p (s0 :: q) z tl N1) as HX. rewrite <- EL in HX. cbn [app] in HX. rewrite one_gone in HX.
    assert (EG : remove_first x l = p ++ s0 :: q) by (rewrite EL; apply remove_first_split, N1). rewrite EG in HX.
    eapply got_u_call in R; [|exact N|exact HX]. set (m1 := GM _ _ _ _) in R.
    assert (HS1 : forall s, sender c = Some s -> In s (g_objs m1)).
    { intros s Hs. injection Hs as <-. cbn [g_objs m1]. apply in_or_app. right. left. reflexivity. }
    eapply got_t in R; [|exact N|apply (call_hand hash enc desc l c D v G m1 HS1 p s0 (map Some q ++ Some (last (s0 :: q) x) :: None :: tl))].
    2:{ cbn [g_tab m1]. rewrite map_app, <- app_assoc. reflexivity. }
    2:{ cbn [g_objs m1]. apply in_or_app. right. left. reflexivity. }
    2:{ cbn. auto. }
    2:{ exact HD. }
    assert (HB : gsteps m1 (GHand (msg c D v) (length p) s0) m1 (GLoop (msg c D v) (length (p ++ [s0]))) []).
    { apply gsteps_one; [discriminate|]. rewrite snoc_length. reflexivity. }
    eapply got_t in R; [|exact N|exact HB].
    eapply got_t in R; [|exact N|apply (pass_end hash enc desc l c D v G m1 HS1 (p ++ [s0]) q (Some (last (s0 :: q) x) :: None :: tl))].
    2:{ cbn [g_tab m1]. rewrite <- (app_assoc p). reflexivity. }
    2:{ cbn [g_cnt m1]. rewrite <- app_assoc. reflexivity. }
    2:{ cbn [g_objs m1]. intros b Hb. apply in_or_app. right. right. exact Hb. }
    2:{ cbn. auto. }
    destruct (got_done _ _ _ _ _ _ _ _ _ _ R) as (s & w & RW & AB & EM & EW). exists s, w. split; [exact RW|]. split; [exact AB|].
    rewrite EW, !in_app_iff. left. left. right. left. reflexivity.
  Qed.

  (** ** Races *)
  Lemma to_count tab n o pt b : (forall s, sender b = Some s -> In s o) ->
    exists o' pt' pc es, gsteps (GM tab n o pt) (gbegin b) (GM tab n o' pt') pc es /\ gaccess pc = Some (GPCount, false) /\ incl o o'.
  Proof.
    intros HS. destruct b as [a|a|a v|D v].
    - exists (o ++ [a]), (pt ++ [a]), (GCount a), []. split; [apply gsteps_one; [discriminate|reflexivity]|]. split; [reflexivity|apply incl_appl, incl_refl].
    - exists o, (pt ++ [a]), (GFor a 0), []. split; [apply gsteps_one; [discriminate|reflexivity]|]. split; [reflexivity|apply incl_refl].
    - eexists o, pt, _, _. split; [|split; [|apply incl_refl]].
      + apply (gsteps_start hash enc desc _ (ModSend a v) _ _ eq_refl). apply HS. reflexivity.
      + reflexivity.
    - eexists o, pt, _, _. split; [constructor|]. split; [reflexivity|apply incl_refl].
  Qed.
  Lemma to_write z tl o pt a : (exists x, a = Construct x) \/ (exists x, a = Destroy x /\ In x l) ->
    exists m pc es, gsteps (GM (map Some l ++ z :: tl) (length l) o pt) (gbegin a) m pc es /\ gaccess pc = Some (GPCount, true).
  Proof.
    intros [(x & ->)|(x & -> & HX)].
    - eexists _, (GBump x (length l)), []. split; [|reflexivity]. eapply gsteps_then; [discriminate|reflexivity|]. apply gsteps_one; [discriminate|reflexivity].
    - destruct (first_split desc x l HX) as (l1 & l2 & EL & N1).
      pose proof (gsteps_taken hash desc x o pt l1 l2 (z :: tl) N1) as H. rewrite <- EL in H.
      assert (LL : length l = S (length (l1 ++ l2))) by (rewrite EL, !app_length; cbn; lia).
      assert (EP : put_slot (map Some (l1 ++ l2) ++ Some (last l2 x) :: z :: tl) (length l) None = Ok (map Some (l1 ++ l2) ++ Some (last l2 x) :: None :: tl)).
      { replace (map Some (l1 ++ l2) ++ Some (last l2 x) :: z :: tl) with ((map Some (l1 ++ l2) ++ [Some (last l2 x)]) ++ z :: tl) by (rewrite <- app_assoc; reflexivity).
        replace (length l) with (length (map Some (l1 ++ l2) ++ [Some (last l2 x)])) by (rewrite snoc_length, map_length; lia).
        rewrite ObserverProofs1.put_app, <- app_assoc. reflexivity. }
      eexists _, (GDec x (length l)), []. split; [|reflexivity]. eapply gsteps_trans; [exact H|].
      eapply gsteps_then; [discriminate|reflexivity|].
      eapply gsteps_then; [discriminate|cbn [MedShareModel.gstep g_tab g_cnt]; rewrite EP; reflexivity|].
      apply gsteps_one; [discriminate|reflexivity].
  Qed.
  Lemma races z tl a b : (exists x, a = Construct x) \/ (exists x, a = Destroy x /\ In x l) -> (forall s, sender b = Some s -> In s l) ->
    exists s w, grun (gstart (GM (map Some l ++ z :: tl) (length l) l []) (gtwo t u [a] [b])) s = Ok w /\ grace w.
  Proof.
    intros HA HB. set (m0 := GM (map Some l ++ z :: tl) (length l) l []).
    pose proof (got_start hash enc desc t u N m0 [a] [b]) as R.
    destruct (to_count (map Some l ++ z :: tl) (length l) l [] b HB) as (o' & pt' & pcb & eb & B & AB & _).
    eapply got_u_call in R; [|exact N|exact B].
    destruct (to_write z tl o' pt' a HA) as (m & pc & es & A & AA).
    eapply got_t_call in R; [|exact N|exact A].
    eapply got_race; [exact N|exact R|exact AA|exact AB].
  Qed.
End Wrong.

Section Serial.
  Variable hash : string -> Z.
  Variable enc : mty -> Z -> list Z.
  Variable desc : addr -> mdesc.
  Notation grun := (grun hash enc desc).

  (** What a single-threaded use leaves. *)
  Lemma shape n w : minv desc n w -> exists r, gmem_of w = GM (map Some (registered (m_log w)) ++ r) (length (registered (m_log w))) (registered (m_log w)) [].
  Proof. intros I. destruct (mi_repr _ _ _ I) as [r E]. exists r. unfold gmem_of. rewrite E, (mi_cnt _ _ _ I). reflexivity. Qed.
  Lemma shape_room n w : minv desc n w -> (length (registered (m_log w)) < n)%nat ->
    exists x r, gmem_of w = GM (map Some (registered (m_log w)) ++ x :: r) (length (registered (m_log w))) (registered (m_log w)) [].
  Proof.
    intros I L. destruct (mi_repr _ _ _ I) as [r E]. destruct r as [|x r].
    - pose proof (mi_len _ _ _ I) as EL. rewrite E, app_length, map_length in EL. cbn in EL. lia.
    - exists x, r. unfold gmem_of. rewrite E, (mi_cnt _ _ _ I). reflexivity.
  Qed.

  Lemma serial n order : forall w0 w1 w, minv desc n w0 -> each_returns hash enc desc n w0 (map snd order) w1 ->
    g_mem w = gmem_of w0 -> (forall t, g_thr w t = GTh (calls_by t order) GIdle) ->
    exists ks w', length ks = length order /\ grun w (turns (map fst order) ks) = Ok w' /\ all_back w' /\ g_mem w' = gmem_of w1 /\
      exists es, g_log w' = g_log w ++ es /\ m_log w1 = m_log w0 ++ map snd es.
  Proof.
    induction order as [|[t c] order IH]; intros w0 w1 w I E EM ET.
    - inversion E; subst. exists [], w. split; [reflexivity|]. split; [reflexivity|]. split; [exact ET|]. split; [exact EM|].
      exists []. rewrite !app_nil_r. split; reflexivity.
    - cbn [map snd] in E. inversion E as [|? ? f w2 ? ? R E']; subst.
      destruct f as [|f]; [discriminate R|].
      destruct (gsteps_alone hash enc desc n f w0 c w2 I R) as (es & EL & ST).
      assert (I2 : minv desc n w2).
      { pose proof (mrun_safe desc n hash enc (idle_handler) (idle_hook) (S f) w0 c I) as HS. unfold msafe in HS. rewrite R in HS. apply HS. }
      destruct (grun_call hash enc desc _ _ _ _ _ t w (calls_by t order) ST EM) as (k & w3 & R3 & [A1 A2 A3 A4]).
      { rewrite ET. unfold calls_by. cbn [flat_map fst snd]. rewrite Nat.eqb_refl. reflexivity. }
      destruct (IH w2 w1 w3 I2 E' A1) as (ks & w' & L & R' & AB & EM' & fs & EF & EG).
      { intros u. destruct (Nat.eq_dec u t) as [->|NU]; [exact A2|]. rewrite A3 by exact NU. rewrite ET. unfold calls_by. cbn [flat_map fst snd].
        destruct (Nat.eqb_spec t u); [congruence|reflexivity]. }
      exists (k :: ks), w'. split; [cbn; lia|]. split.
      { change (turns (map fst ((t, c) :: order)) (k :: ks)) with (repeat t k ++ turns (map fst order) ks).
        rewrite (grun_then hash enc desc _ _ _ _ R3). exact R'. }
      split; [exact AB|]. split; [exact EM'|]. exists (map (pair t) (Begin c :: es) ++ fs).
      split; [rewrite EF, A4, <- app_assoc; reflexivity|]. rewrite EG, EL, map_app, map_map. cbn [snd]. rewrite map_id, <- app_assoc. reflexivity.
  Qed.
End Serial.
