(** Schedules of the shared mediator. *)
From Verif Require Export MedShareProofs3.

Section Wrong.
  Variable hash : string -> Z.
  Variable enc : mty -> Z -> list Z.
  Variable desc : addr -> mdesc.
  Notation gstep := (gstep hash desc).
  Notation gmove := (gmove hash enc desc).
  Notation grun := (grun hash enc desc).
  Notation gbegin := (gbegin hash enc desc).
  Notation gsteps := (gsteps hash desc).
  Notation good := (good_send hash enc desc).
  Notation seen := (seen hash enc desc).
  Notation msg := (msg_of hash enc).
  Definition recvs (D : mty) (v : Z) (l : list addr) : list mev := map (fun a => Recv a D (enc D v)) (filter (wants desc D) l).

  (** Threads [t] and [u] have got so far. *)
  Section Reach.
    Variable t u : nat.
    Hypothesis N : t <> u.
    Variable m0 : gmem.
    Variable ca cb : list mcall.
    Definition got_to (m : gmem) (pt pu : gthread) (log : list (nat * mev)) : Prop :=
      exists s w, grun (gstart m0 (gtwo t u ca cb)) s = Ok w /\ g_mem w = m /\ g_thr w t = pt /\ g_thr w u = pu /\
        (forall k, k <> t -> k <> u -> g_thr w k = GTh [] GIdle) /\ g_log w = log.
    Lemma got_start : got_to m0 (GTh ca GIdle) (GTh cb GIdle) [].
    Proof.
      exists [], (gstart m0 (gtwo t u ca cb)). split; [reflexivity|]. split; [reflexivity|]. unfold gstart, gtwo. cbn [g_thr g_log].
      split; [rewrite Nat.eqb_refl; reflexivity|]. split; [destruct (Nat.eqb_spec u t); [congruence|]; rewrite Nat.eqb_refl; reflexivity|].
      split; [|reflexivity]. intros k K1 K2. destruct (Nat.eqb_spec k t); [congruence|]. destruct (Nat.eqb_spec k u); [congruence|reflexivity].
    Qed.
    Lemma got_t m calls pc pu log m' pc' es : got_to m (GTh calls pc) pu log -> gsteps m pc m' pc' es ->
      got_to m' (GTh calls pc') pu (log ++ map (pair t) es).
    Proof.
      intros (s & w & R & A & B & C & D & E) H. destruct (grun_steps hash enc desc _ _ _ _ _ t H w A) as (k & w' & R' & [A1 A2 A3 A4]); [rewrite B; reflexivity|].
      exists (s ++ repeat t k), w'. split; [rewrite (grun_then hash enc desc _ _ _ _ R); exact R'|]. split; [exact A1|].
      split; [rewrite A2, B; reflexivity|]. split; [rewrite A3 by auto; exact C|]. split; [intros j J1 J2; rewrite A3 by auto; apply D; auto|].
      rewrite A4, E. reflexivity.
    Qed.
    Lemma got_t_call m c calls pu log m' pc' es : got_to m (GTh (c :: calls) GIdle) pu log -> gsteps m (gbegin c) m' pc' es ->
      got_to m' (GTh calls pc') pu (log ++ map (pair t) (Begin c :: es)).
    Proof.
      intros (s & w & R & A & B & C & D & E) H. destruct (grun_call hash enc desc _ _ _ _ _ t w calls H A B) as (k & w' & R' & [A1 A2 A3 A4]).
      exists (s ++ repeat t k), w'. split; [rewrite (grun_then hash enc desc _ _ _ _ R); exact R'|]. split; [exact A1|].
      split; [exact A2|]. split; [rewrite A3 by auto; exact C|]. split; [intros j J1 J2; rewrite A3 by auto; apply D; auto|].
      rewrite A4, E. reflexivity.
    Qed.
    Lemma got_u m calls pc pt log m' pc' es : got_to m pt (GTh calls pc) log -> gsteps m pc m' pc' es ->
      got_to m' pt (GTh calls pc') (log ++ map (pair u) es).
    Proof.
      intros (s & w & R & A & B & C & D & E) H. destruct (grun_steps hash enc desc _ _ _ _ _ u H w A) as (k & w' & R' & [A1 A2 A3 A4]); [rewrite C; reflexivity|].
      exists (s ++ repeat u k), w'. split; [rewrite (grun_then hash enc desc _ _ _ _ R); exact R'|]. split; [exact A1|].
      split; [rewrite A3 by auto; exact B|]. split; [rewrite A2, C; reflexivity|]. split; [intros j J1 J2; rewrite A3 by auto; apply D; auto|].
      rewrite A4, E. reflexivity.
    Qed.
    Lemma got_u_call m c calls pt log m' pc' es : got_to m pt (GTh (c :: calls) GIdle) log -> gsteps m (gbegin c) m' pc' es ->
      got_to m' pt (GTh calls pc') (log ++ map (pair u) (Begin c :: es)).
    Proof.
      intros (s & w & R & A & B & C & D & E) H. destruct (grun_call hash enc desc _ _ _ _ _ u w calls H A C) as (k & w' & R' & [A1 A2 A3 A4]).
      exists (s ++ repeat u k), w'. split; [rewrite (grun_then hash enc desc _ _ _ _ R); exact R'|]. split; [exact A1|].
      split; [rewrite A3 by auto; exact B|]. split; [exact A2|]. split; [intros j J1 J2; rewrite A3 by auto; apply D; auto|].
      rewrite A4, E. reflexivity.
    Qed.
    Lemma got_stuck m calls pc pu log : got_to m (GTh calls pc) pu log -> pc <> GIdle -> gstep m pc = UB ->
      exists s, grun (gstart m0 (gtwo t u ca cb)) s = UB.
    Proof.
      intros (s & w & R & A & B & C & D & E) NI ST. exists (s ++ [t]). rewrite (grun_then hash enc desc _ _ _ _ R). cbn [MedShareModel.grun].
      rewrite (gmove_in hash enc desc w t pc); [|rewrite B; reflexivity|exact NI]. rewrite A, ST. reflexivity.
    Qed.
    Lemma got_done m log : got_to m (GTh [] GIdle) (GTh [] GIdle) log ->
      exists s w, grun (gstart m0 (gtwo t u ca cb)) s = Ok w /\ all_back w /\ g_mem w = m /\ g_log w = log.
    Proof.
      intros (s & w & R & A & B & C & D & E). exists s, w. split; [exact R|]. split; [|auto].
      intros k. destruct (Nat.eq_dec k t) as [->|K1]; [exact B|]. destruct (Nat.eq_dec k u) as [->|K2]; [exact C|]. apply D; assumption.
    Qed.
    Lemma got_race m pt pu log p b : got_to m pt pu log -> gaccess (g_pc pt) = Some (p, true) -> gaccess (g_pc pu) = Some (p, b) ->
      exists s w, grun (gstart m0 (gtwo t u ca cb)) s = Ok w /\ grace w.
    Proof.
      intros (s & w & R & A & B & C & D & E) H1 H2. exists s, w. split; [exact R|]. exists t, u, p, b. rewrite B, C. auto.
    Qed.
  End Reach.

  (** ** Pieces of a send *)
  Section Pieces.
    Variable reg : list addr.
    Variable c : mcall.
    Variable D : mty.
    Variable v : Z.
    Hypothesis G : good reg c D v.
    Variable m : gmem.
    Hypothesis HR : forall s, sender c = Some s -> In s (g_objs m).

    Lemma snd_there : sender_there m (sender c).
    Proof. destruct (sender c) as [s|] eqn:E; [|exact Logic.I]. apply HR. reflexivity. Qed.
    (** Slots [p] are behind; [l] is passed. *)
    Lemma pass p l r : g_tab m = map Some (p ++ l) ++ r -> (length (p ++ l) <= g_cnt m)%nat -> incl l (g_objs m) ->
      (forall a, In a l -> ~ In a (g_part m)) ->
      gsteps m (GLoop (msg c D v) (length p)) m (GLoop (msg c D v) (length (p ++ l))) (recvs D v l).
    Proof.
      intros ET L HO HP. destruct G as (ES & HL & HS & HU). unfold recvs. rewrite <- (reactions_wants desc hash enc D (enc D v) l HL HU).
      apply (gsteps_slots hash desc m (msg c D v) r l p ET HO HP snd_there L).
    Qed.
    Lemma start_pass l r : g_tab m = map Some l ++ r -> (length l <= g_cnt m)%nat -> incl l (g_objs m) ->
      (forall a, In a l -> ~ In a (g_part m)) ->
      gsteps m (gbegin c) m (GLoop (msg c D v) (length l)) (told hash enc desc c ++ recvs D v l).
    Proof.
      intros ET L HO HP. eapply gsteps_app; [apply (gsteps_start hash enc desc m c D v (proj1 G) snd_there)|].
      apply (pass [] l r ET L HO HP).
    Qed.
    Lemma pass_end p l r : g_tab m = map Some (p ++ l) ++ r -> g_cnt m = length (p ++ l) -> incl l (g_objs m) ->
      (forall a, In a l -> ~ In a (g_part m)) ->
      gsteps m (GLoop (msg c D v) (length p)) m GIdle (recvs D v l ++ [End c]).
    Proof.
      intros ET L HO HP. eapply gsteps_app; [apply (pass p l r ET ltac:(lia) HO HP)|].
      change (End c) with (End (g_call (msg c D v))). apply gsteps_end. lia.
    Qed.
    Lemma wants_id a : wants desc D a = true -> id_of hash desc a <> hash (ty_name D).
    Proof.
      intros W E. destruct G as (_ & _ & _ & HU). unfold wants in W. destruct (in_dec mty_eq_dec D (md_recvs (desc a))); [|discriminate].
      destruct (mty_eq_dec (md_sends (desc a)) D) as [|NE]; [discriminate|]. apply NE, HU; [|exact E]. exists a. left. reflexivity.
    Qed.
    Lemma recv_in a : In D (md_recvs (desc a)) -> grecv hash (md_recvs (desc a)) (hash (ty_name D)) (enc D v) = Ok (Some (D, enc D v)).
    Proof.
      intros H. destruct G as (_ & HL & _ & HU). rewrite grecv_find.
      assert (F : forall l, incl l (md_recvs (desc a)) -> In D l -> find (fun D0 => hash (ty_name D) =? hash (ty_name D0)) l = Some D).
      { induction l as [|x l IH]; intros HI HD; [destruct HD|]. cbn [find].
        destruct (Z.eqb_spec (hash (ty_name D)) (hash (ty_name x))) as [E|NE].
        - f_equal. apply HU; [exists a; right; apply HI; left; reflexivity|congruence].
        - destruct HD as [->|HD]; [congruence|]. apply IH; [intros y Hy; apply HI; right; exact Hy|exact HD]. }
      rewrite (F _ (incl_refl _) H), HL, Nat.eqb_refl. reflexivity.
    Qed.
    Lemma wants_recv a : wants desc D a = true -> In D (md_recvs (desc a)).
    Proof. unfold wants. destruct (in_dec mty_eq_dec D (md_recvs (desc a))); [auto|discriminate]. Qed.
    (** To the call of receive. *)
    Lemma to_call p a r : g_tab m = map Some p ++ Some a :: r -> (length p < g_cnt m)%nat -> In a (g_objs m) ->
      id_of hash desc a <> hash (ty_name D) ->
      gsteps m (GLoop (msg c D v) (length p)) m (GCall (msg c D v) (length p)) [].
    Proof.
      intros ET L HO NI. eapply gsteps_then; [discriminate|cbn [MedShareModel.gstep]; rewrite (proj2 (Nat.ltb_lt _ _) L); reflexivity|].
      apply gsteps_one; [discriminate|]. cbn [MedShareModel.gstep msg_of g_id g_snd]. rewrite (gmodule_ok m p a r ET HO). cbn [bind].
      rewrite (gsender_ok m (sender c) snd_there). cbn [bind]. destruct (Z.eqb_spec (id_of hash desc a) (hash (ty_name D))); [contradiction|reflexivity].
    Qed.
    Lemma call_hand p a r : g_tab m = map Some p ++ Some a :: r -> In a (g_objs m) -> ~ In a (g_part m) -> In D (md_recvs (desc a)) ->
      gsteps m (GCall (msg c D v) (length p)) m (GHand (msg c D v) (length p) a) [Recv a D (enc D v)].
    Proof.
      intros ET HO HP HD. apply gsteps_one; [discriminate|]. cbn [MedShareModel.gstep msg_of g_id g_snd g_bs]. rewrite (gmodule_ok m p a r ET HO). cbn [bind].
      rewrite (gsender_ok m (sender c) snd_there). cbn [bind]. rewrite (recv_in a HD). cbn [bind].
      destruct (in_dec Pos.eq_dec a (g_part m)); [contradiction|reflexivity].
    Qed.
    Lemma call_part p a r : g_tab m = map Some p ++ Some a :: r -> In a (g_objs m) -> In a (g_part m) -> In D (md_recvs (desc a)) ->
      gstep m (GCall (msg c D v) (length p)) = UB.
    Proof.
      intros ET HO HP HD. cbn [MedShareModel.gstep msg_of g_id g_snd g_bs]. rewrite (gmodule_ok m p a r ET HO). cbn [bind].
      rewrite (gsender_ok m (sender c) snd_there). cbn [bind]. rewrite (recv_in a HD). cbn [bind].
      destruct (in_dec Pos.eq_dec a (g_part m)); [reflexivity|contradiction].
    Qed.
    Lemma seen_eq l : seen l c = Begin c :: told hash enc desc c ++ recvs D v l ++ [End c].
    Proof. unfold MedShareSpec.seen. rewrite (proj1 G). reflexivity. Qed.
  End Pieces.

  (** ** Only sends *)
  Section Sends.
    Variable t u : nat.
    Hypothesis N : t <> u.
    Variable l : list addr.
    Variable tl : list ptr.
    Notation m0 := (GM (map Some l ++ tl) (length l) l []).
    Variable c1 c2 : mcall.
    Variable D1 D2 : mty.
    Variable v1 v2 : Z.
    Hypothesis G1 : good l c1 D1 v1.
    Hypothesis G2 : good l c2 D2 v2.

    Lemma crossed p a q b r : l = p ++ a :: q ++ b :: r -> 
      wants desc D1 a = true -> wants desc D2 a = true -> wants desc D1 b = true -> wants desc D2 b = true ->
      exists s w, grun (gstart m0 (gtwo t u [c1] [c2])) s = Ok w /\ all_back w /\
        earlier (g_log w) (t, Recv a D1 (enc D1 v1)) (u, Recv a D2 (enc D2 v2)) /\
        earlier (g_log w) (u, Recv b D2 (enc D2 v2)) (t, Recv b D1 (enc D1 v1)).
    Proof.
      intros EL A1 A2 B1 B2.
      assert (S1 : forall s, sender c1 = Some s -> In s (g_objs m0)) by apply G1.
      assert (S2 : forall s, sender c2 = Some s -> In s (g_objs m0)) by apply G2.
      assert (EL' : l = (p ++ [a]) ++ q ++ b :: r) by (rewrite <- app_assoc; exact EL).
      pose proof (got_start t u N m0 [c1] [c2]) as R0.
      assert (P1 := start_pass l c1 D1 v1 G1 m0 S1 (p ++ [a]) (map Some (q ++ b :: r) ++ tl)).
      assert (R1 := got_t_call t u N m0 [c1] [c2] _ _ _ _ _ _ _ _ R0 (P1
                ltac:(cbn [g_tab]; rewrite EL', map_app, <- app_assoc; reflexivity)
                ltac:(cbn [g_cnt]; rewrite EL', (app_length (p ++ [a])); lia)
                ltac:(cbn [g_objs]; rewrite EL'; apply incl_appl, incl_refl) ltac:(cbn; auto))).
      destruct (gsteps_send hash enc desc m0 l tl l c2 D2 v2 G2 (incl_refl _) eq_refl eq_refl (incl_refl _) ltac:(cbn; auto)) as (es & H2 & E2).
      assert (R2 := got_u_call t u N m0 [c1] [c2] _ _ _ _ _ _ _ _ R1 H2).
      assert (P3 := pass_end l c1 D1 v1 G1 m0 S1 (p ++ [a]) (q ++ b :: r) tl).
      rewrite <- EL' in P3. specialize (P3 eq_refl eq_refl).
      assert (R3 := got_t t u N m0 [c1] [c2] _ _ _ _ _ _ _ _ R2 (P3
                ltac:(cbn [g_objs]; rewrite EL'; apply incl_appr, incl_refl) ltac:(cbn; auto))).
      destruct (got_done t u m0 [c1] [c2] _ _ R3) as (s & w & R & AB & _ & EW). exists s, w. split; [exact R|]. split; [exact AB|].
      rewrite EW, E2, (seen_eq l c2 D2 v2 G2 l).
      assert (F : forall D y (z : nat), wants desc D a = true -> wants desc D b = true ->
        exists x1 x2 x3, map (pair z) (recvs D y (p ++ [a])) = x1 ++ [(z, Recv a D (enc D y))] /\ 
          map (pair z) (recvs D y (q ++ b :: r)) = x2 ++ (z, Recv b D (enc D y)) :: x3).
      { intros D y z W1 W2. exists (map (pair z) (recvs D y p)), (map (pair z) (recvs D y q)), (map (pair z) (recvs D y r)).
        unfold recvs. rewrite !filter_app. cbn [filter]. rewrite W1, W2, !map_app. cbn [map]. split; reflexivity. }
      destruct (F D1 v1 t A1 B1) as (x1 & x2 & x3 & F1 & F2). destruct (F D2 v2 u A2 B2) as (y1 & y2 & y3 & F3 & F4).
      assert (FL : map (pair u) (recvs D2 v2 l) = (y1 ++ [(u, Recv a D2 (enc D2 v2))]) ++ y2 ++ (u, Recv b D2 (enc D2 v2)) :: y3)
        by (rewrite EL', <- F4, <- F3; unfold recvs; rewrite (filter_app _ (p ++ [a])), !map_app; reflexivity).
      cbn [map app]. rewrite !map_app, F1, F2, FL. cbn [map]. split.
      - exists ((t, Begin c1) :: map (pair t) (told hash enc desc c1) ++ x1),
          ((u, Begin c2) :: map (pair u) (told hash enc desc c2) ++ y1),
          (y2 ++ (u, Recv b D2 (enc D2 v2)) :: y3 ++ [(u, End c2)] ++ x2 ++ (t, Recv b D1 (enc D1 v1)) :: x3 ++ [(t, End c1)]).
        repeat (rewrite <- ?app_assoc; cbn [app]). reflexivity.
      - exists ((t, Begin c1) :: map (pair t) (told hash enc desc c1) ++ x1 ++ [(t, Recv a D1 (enc D1 v1))] ++
                (u, Begin c2) :: map (pair u) (told hash enc desc c2) ++ y1 ++ [(u, Recv a D2 (enc D2 v2))] ++ y2),
          (y3 ++ [(u, End c2)] ++ x2), (x3 ++ [(t, End c1)]).
        repeat (rewrite <- ?app_assoc; cbn [app]). reflexivity.
    Qed.
    Lemma both_in p a r : l = p ++ a :: r -> wants desc D1 a = true -> wants desc D2 a = true ->
      exists s w, grun (gstart m0 (gtwo t u [c1] [c2])) s = Ok w /\ in_handler w t a /\ in_handler w u a.
    Proof.
      intros EL A1 A2.
      assert (S1 : forall s, sender c1 = Some s -> In s (g_objs m0)) by apply G1.
      assert (S2 : forall s, sender c2 = Some s -> In s (g_objs m0)) by apply G2.
      assert (ET : g_tab m0 = map Some p ++ Some a :: map Some r ++ tl) by (cbn [g_tab]; rewrite EL, map_app, <- app_assoc; reflexivity).
      assert (HA : In a (g_objs m0)) by (cbn; rewrite EL; apply in_or_app; right; left; reflexivity).
      assert (LP : (length p < g_cnt m0)%nat) by (cbn; rewrite EL, app_length; cbn; lia).
      assert (HI : incl p (g_objs m0)) by (cbn; rewrite EL; apply incl_appl, incl_refl).
      assert (X : forall c D v, good l c D v -> wants desc D a = true -> (forall s, sender c = Some s -> In s (g_objs m0)) ->
                exists es, gsteps m0 (gbegin c) m0 (GHand (msg c D v) (length p) a) es).
      { intros c D v G W HS. eexists. eapply gsteps_app; [apply (start_pass l c D v G m0 HS p _ ET); [lia|exact HI|cbn; auto]|].
        eapply gsteps_app; [eapply (to_call c D v m0 HS p a _ ET LP HA), (wants_id l c D v G a W)|].
        eapply (call_hand l c D v G m0 HS p a _ ET HA); [cbn; auto|apply wants_recv, W]. }
      destruct (X c1 D1 v1 G1 A1 S1) as [e1 X1]. destruct (X c2 D2 v2 G2 A2 S2) as [e2 X2].
      assert (R1 := got_t_call t u N m0 [c1] [c2] _ _ _ _ _ _ _ _ (got_start t u N m0 [c1] [c2]) X1).
      assert (R2 := got_u_call t u N m0 [c1] [c2] _ _ _ _ _ _ _ _ R1 X2).
      destruct R2 as (s & w & R & A & B & C & _). exists s, w. split; [exact R|]. unfold in_handler. rewrite B, C. split; eexists; eexists; reflexivity.
    Qed.
  End Sends.
End Wrong.
