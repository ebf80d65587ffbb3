(** Calls of one thread alone, and two threads whose calls are cut into pieces. *)
From Verif Require Export MedShareProofs2.
From Verif Require Import ObserverProofs1.

Section Two.
  Variable hash : string -> Z.
  Variable enc : mty -> Z -> list Z.
  Variable desc : addr -> mdesc.
  Notation gstep := (gstep hash desc).
  Notation gmove := (gmove hash enc desc).
  Notation grun := (grun hash enc desc).
  Notation gbegin := (gbegin hash enc desc).
  Notation gsteps := (gsteps hash desc).
  Notation reaction := (reaction desc hash).
  Notation good := (good_send hash enc desc).
  Notation seen := (seen hash enc desc).

  (** ** Constructors and destructors *)
  Lemma put_next l x tl o : put_slot (map Some l ++ x :: tl) (length l) (Some o) = Ok (map Some (l ++ [o]) ++ tl).
  Proof. rewrite <- (map_length (@Some positive) l) at 1. rewrite put_app, map_app, <- app_assoc. reflexivity. Qed.
  Lemma last_shift (q : list addr) : forall y x, last (y :: q) x = last q y.
  Proof. induction q as [|z q IH]; intros y x; [reflexivity|]. change (last (y :: z :: q) x) with (last (z :: q) x). rewrite !IH. reflexivity. Qed.
  Lemma gsteps_shift a cnt o pt tl q : forall p x, cnt = (length p + S (length q))%nat ->
    gsteps (GM (map Some p ++ Some x :: map Some q ++ tl) cnt o pt) (GIn a (length p))
           (GM (map Some (p ++ q) ++ Some (last q x) :: tl) cnt o pt) (GZero a) [].
  Proof.
    induction q as [|y q IH]; intros p x EC.
    - rewrite app_nil_r. apply gsteps_one; [discriminate|]. cbn [MedShareModel.gstep g_cnt].
      cbn [length] in EC. replace (cnt =? 0)%nat with false by lia. replace (S (length p) <? cnt)%nat with false by lia. cbn [orb]. reflexivity.
    - cbn [length] in EC. eapply gsteps_then; [discriminate| |].
      { cbn [MedShareModel.gstep g_cnt]. replace (cnt =? 0)%nat with false by lia. replace (S (length p) <? cnt)%nat with true by lia. cbn [orb]. reflexivity. }
      eapply gsteps_then; [discriminate| |].
      { cbn [MedShareModel.gstep g_tab map app].
        replace (map Some p ++ Some x :: Some y :: map Some q ++ tl) with ((map Some p ++ [Some x]) ++ Some y :: map Some q ++ tl)
          by (rewrite <- app_assoc; reflexivity).
        replace (S (length p)) with (length (map Some p ++ [Some x])) by (rewrite snoc_length, map_length; reflexivity).
        rewrite slot_app. reflexivity. }
      eapply gsteps_then; [discriminate| |].
      { cbn [MedShareModel.gstep g_tab map app]. rewrite <- (app_assoc (map Some p)). cbn [app]. rewrite put_next. reflexivity. }
      rewrite last_shift. specialize (IH (p ++ [y]) y). rewrite snoc_length in IH.
      rewrite (map_app (@Some positive) p [y]), <- (app_assoc (map Some p)), <- (app_assoc p) in IH. cbn [map app] in IH.
      cbn [g_cnt g_objs g_part]. rewrite map_app, <- app_assoc. cbn [map app]. apply IH. lia.
  Qed.
  (** The same of the single-threaded model. *)
  Lemma shift_down_last tl q : forall p x,
    shift_down (p ++ Some x :: map Some q ++ tl) (length p) (length q) = Ok (p ++ map Some q ++ Some (last q x) :: tl).
  Proof.
    induction q as [|y q IH]; intros p x; [reflexivity|]. cbn [length shift_down map app].
    replace (slot (p ++ Some x :: Some y :: map Some q ++ tl) (S (length p))) with (Ok (Some y)).
    2:{ replace (p ++ Some x :: Some y :: map Some q ++ tl) with ((p ++ [Some x]) ++ Some y :: map Some q ++ tl) by (rewrite <- app_assoc; reflexivity).
        replace (S (length p)) with (length (p ++ [Some x])) by (rewrite snoc_length; reflexivity). rewrite slot_app. reflexivity. }
    cbn [bind]. rewrite put_app. cbn [bind]. rewrite last_shift. specialize (IH (p ++ [Some y]) y). rewrite snoc_length, <- !app_assoc in IH.
    cbn [app] in IH. exact IH.
  Qed.
  Lemma remove_from_last a l2 r l1 : forall p cnt, ~ In a l1 -> cnt = (length p + length (l1 ++ a :: l2))%nat ->
    remove_from (p ++ map Some (l1 ++ a :: l2) ++ r) cnt (length p) (length (l1 ++ a :: l2)) a
    = (tab2 <- put_slot (p ++ map Some (l1 ++ l2) ++ Some (last l2 a) :: r) cnt None ;; Ok (tab2, (cnt - 1)%nat)).
  Proof.
    induction l1 as [|x l1 IH]; intros p cnt H HC; cbn [map length remove_from app]; rewrite slot_app; cbn [bind points_to].
    - rewrite Pos.eqb_refl. cbn [app length] in HC. replace (cnt - 1 - length p)%nat with (length l2) by lia.
      rewrite shift_down_last. reflexivity.
    - destruct (Pos.eqb_spec x a) as [E|N]; [exfalso; apply H; left; exact E|].
      specialize (IH (p ++ [Some x]) cnt). rewrite app_length, <- !app_assoc in IH. cbn [length app] in IH.
      replace (length p + 1)%nat with (S (length p)) in IH by lia. apply IH.
      + intros HI. apply H. right. exact HI.
      + rewrite HC. cbn [length app]. rewrite !app_length. cbn [length]. lia.
  Qed.
  Lemma slot_at p x q tl : slot (map Some (p ++ x :: q) ++ tl) (length p) = Ok (Some x).
  Proof.
    rewrite map_app, <- app_assoc. cbn [map app]. rewrite <- (map_length (@Some positive) p) at 1. apply slot_app.
  Qed.
  (** From the start of the search to the shifting done; to the end. *)
  Lemma gsteps_find a n o pt tl q r : forall p, ~ In a q -> (length (p ++ q) <= n)%nat ->
    gsteps (GM (map Some (p ++ q ++ r) ++ tl) n o pt) (GFor a (length p)) (GM (map Some (p ++ q ++ r) ++ tl) n o pt) (GFor a (length (p ++ q))) [].
  Proof.
    induction q as [|x q IH]; intros p NI L; [rewrite app_nil_r; constructor|].
    assert (LT : (length p < n)%nat) by (rewrite app_length in L; cbn in L; lia).
    eapply gsteps_then; [discriminate| |].
    { cbn [MedShareModel.gstep g_cnt]. rewrite (proj2 (Nat.ltb_lt _ _) LT). reflexivity. }
    eapply gsteps_then; [discriminate| |].
    { cbn [MedShareModel.gstep g_tab app]. rewrite slot_at. cbn [bind points_to].
      destruct (Pos.eqb_spec x a) as [->|_]; [exfalso; apply NI; left; reflexivity|]. reflexivity. }
    specialize (IH (p ++ [x])). rewrite snoc_length in IH. repeat rewrite <- app_assoc in IH. cbn [app] in IH.
    apply IH; [intros H; apply NI; right; exact H|exact L].
  Qed.
  Lemma gsteps_find_at a n o pt q1 q2 tl : ~ In a q1 -> (length q1 < n)%nat ->
    gsteps (GM (map Some (q1 ++ a :: q2) ++ tl) n o pt) (GFor a 0) (GM (map Some (q1 ++ a :: q2) ++ tl) n o pt) (GIn a (length q1)) [].
  Proof.
    intros NI L. eapply gsteps_trans; [apply (gsteps_find a n o pt tl q1 (a :: q2) [] NI); cbn [app]; lia|]. cbn [app].
    eapply gsteps_then; [discriminate| |].
    { cbn [MedShareModel.gstep g_cnt]. rewrite (proj2 (Nat.ltb_lt _ _) L). reflexivity. }
    apply gsteps_one; [discriminate|]. cbn [MedShareModel.gstep g_tab]. rewrite slot_at. cbn [bind points_to]. rewrite Pos.eqb_refl. reflexivity.
  Qed.
  Lemma gsteps_taken a o pt q1 q2 tl : ~ In a q1 ->
    gsteps (GM (map Some (q1 ++ a :: q2) ++ tl) (length (q1 ++ a :: q2)) o pt) (GOwn a)
           (GM (map Some (q1 ++ q2) ++ Some (last q2 a) :: tl) (length (q1 ++ a :: q2)) o (pt ++ [a])) (GZero a) [].
  Proof.
    intros NI. eapply gsteps_then; [discriminate|reflexivity|]. cbn [g_tab g_cnt g_objs g_part].
    eapply gsteps_trans; [apply gsteps_find_at; [exact NI|rewrite app_length; cbn; lia]|].
    rewrite (map_app (@Some positive) q1 (a :: q2)), <- app_assoc. cbn [map app].
    apply gsteps_shift. rewrite app_length. cbn. lia.
  Qed.
  Lemma gsteps_close a n l y z tl o pt : length l = n ->
    gsteps (GM (map Some l ++ y :: z :: tl) (S n) o pt) (GZero a) (GM (map Some l ++ y :: None :: tl) n (remove_first a o) (remove_first a pt)) GIdle
           [End (Destroy a)].
  Proof.
    intros EL. assert (EP : put_slot (map Some l ++ y :: z :: tl) (S n) None = Ok (map Some l ++ y :: None :: tl)).
    { replace (map Some l ++ y :: z :: tl) with ((map Some l ++ [y]) ++ z :: tl) by (rewrite <- app_assoc; reflexivity).
      replace (S n) with (length (map Some l ++ [y])) by (rewrite snoc_length, map_length; lia).
      rewrite put_app, <- app_assoc. reflexivity. }
    eapply gsteps_then; [discriminate|reflexivity|].
    eapply gsteps_then; [discriminate|cbn [MedShareModel.gstep g_tab g_cnt]; rewrite EP; reflexivity|].
    eapply gsteps_then; [discriminate|reflexivity|].
    eapply gsteps_then; [discriminate|cbn [MedShareModel.gstep g_tab g_cnt g_objs g_part Nat.eqb]; reflexivity|].
    replace (S n - 1)%nat with n by lia. apply gsteps_one; [discriminate|reflexivity].
  Qed.
  Lemma gsteps_destroy a o pt q1 q2 z tl : ~ In a q1 ->
    gsteps (GM (map Some (q1 ++ a :: q2) ++ z :: tl) (length (q1 ++ a :: q2)) o pt) (GOwn a)
           (GM (map Some (q1 ++ q2) ++ Some (last q2 a) :: None :: tl) (length (q1 ++ q2)) (remove_first a o) (remove_first a (pt ++ [a]))) GIdle
           [End (Destroy a)].
  Proof.
    intros NI. eapply gsteps_trans; [apply gsteps_taken, NI|].
    replace (length (q1 ++ a :: q2)) with (S (length (q1 ++ q2))) by (rewrite !app_length; cbn; lia).
    apply gsteps_close. reflexivity.
  Qed.
  Lemma gsteps_destroy_none a o pt q tl : ~ In a q ->
    gsteps (GM (map Some q ++ tl) (length q) o pt) (GOwn a)
           (GM (map Some q ++ tl) (length q) (remove_first a o) (remove_first a (pt ++ [a]))) GIdle [End (Destroy a)].
  Proof.
    intros NI. eapply gsteps_then; [discriminate|reflexivity|]. cbn [g_tab g_cnt g_objs g_part].
    pose proof (gsteps_find a (length q) o (pt ++ [a]) tl q [] [] NI (Nat.le_refl _)) as H. cbn [app length] in H. rewrite app_nil_r in H.
    eapply gsteps_trans; [exact H|].
    eapply gsteps_then; [discriminate| |].
    { cbn [MedShareModel.gstep g_cnt app]. replace (length q <? length q)%nat with false by lia. reflexivity. }
    apply gsteps_one; [discriminate|reflexivity].
  Qed.
  Lemma gsteps_placed a l x tl o pt :
    gsteps (GM (map Some l ++ x :: tl) (length l) o pt) (GNew a)
           (GM (map Some (l ++ [a]) ++ tl) (S (length l)) (o ++ [a]) (pt ++ [a])) (GBody a) [].
  Proof.
    eapply gsteps_then; [discriminate|reflexivity|]. eapply gsteps_then; [discriminate|reflexivity|].
    eapply gsteps_then; [discriminate|reflexivity|]. apply gsteps_one; [discriminate|]. cbn. rewrite put_next. reflexivity.
  Qed.
  Lemma gsteps_construct a l x tl o pt :
    gsteps (GM (map Some l ++ x :: tl) (length l) o pt) (GNew a)
           (GM (map Some (l ++ [a]) ++ tl) (S (length l)) (o ++ [a]) (remove_first a (pt ++ [a]))) GIdle [End (Construct a)].
  Proof. eapply gsteps_trans; [apply gsteps_placed|]. apply gsteps_one; [discriminate|reflexivity]. Qed.

  (** ** A call alone is the call of the single-threaded model *)
  Lemma first_split (a : addr) l : In a l -> exists l1 l2, l = l1 ++ a :: l2 /\ ~ In a l1.
  Proof.
    induction l as [|x l IH]; intros H; [destruct H|]. destruct (Pos.eq_dec x a) as [->|N].
    - exists [], l. split; [reflexivity|tauto].
    - destruct H as [H|H]; [congruence|]. destruct (IH H) as (l1 & l2 & -> & HN).
      exists (x :: l1), l2. split; [reflexivity|]. intros [G|G]; [congruence|contradiction].
  Qed.
  Notation quiet_h := (fun (_ : list mev) (_ : addr) (_ : mty) (_ : list Z) => MReturn).
  Notation quiet_k := (fun (_ : list mev) (_ : Z) (_ : list Z) => MReturn).
  Lemma gsteps_reg w Sources c D v : minv desc Sources w -> sent desc c = Some (D, v) -> (forall s, sender c = Some s -> In s (registered (m_log w))) ->
    gsteps (gmem_of w) (gbegin c) (gmem_of w) GIdle
      (told hash enc desc c ++ flat_map (reaction (hash (ty_name D)) (enc D v)) (registered (m_log w)) ++ [End c]).
  Proof.
    intros I ES HS. destruct (mi_repr _ _ _ I) as [r ER].
    assert (ST : sender_there (gmem_of w) (sender c)).
    { destruct (sender c) as [s|] eqn:E; [|exact Logic.I]. cbn. apply HS. reflexivity. }
    eapply gsteps_app; [apply (gsteps_start hash enc desc (gmem_of w) c D v ES ST)|].
    eapply gsteps_app; [apply (gsteps_slots hash desc (gmem_of w) (msg_of hash enc c D v) r (registered (m_log w)) [] ER); cbn|].
    - apply incl_refl.
    - auto.
    - exact ST.
    - rewrite (mi_cnt _ _ _ I). lia.
    - change (End c) with (End (g_call (msg_of hash enc c D v))). apply gsteps_end. cbn. rewrite (mi_cnt _ _ _ I). lia.
  Qed.
  Lemma gsteps_alone Sources f w c w1 : minv desc Sources w -> mrun hash enc desc Sources quiet_h quiet_k (S f) w c = MOk w1 ->
    exists es, m_log w1 = m_log w ++ Begin c :: es /\ gsteps (gmem_of w) (gbegin c) (gmem_of w1) GIdle es.
  Proof.
    intros I E. pose proof (mi_repr _ _ _ I) as [r ER]. pose proof (mi_cnt _ _ _ I) as EC.
    assert (SND : forall D v, sent desc c = Some (D, v) -> mrun hash enc desc Sources quiet_h quiet_k (S f) w c = MOk w1 ->
              exists es, m_log w1 = m_log w ++ Begin c :: es /\ gsteps (gmem_of w) (gbegin c) (gmem_of w1) GIdle es).
    { intros D v ES E1. set (l := registered (m_log w)).
      assert (HS : forall s, sender c = Some s -> In s l).
      { intros s H. destruct c; cbn [sender] in H; try discriminate. injection H as ->. cbn [mrun] in E1. unfold sender_read in E1.
        cbn [memit m_log] in E1. rewrite registered_snoc in E1. cbn [reg_step] in E1. fold l in E1. destruct (in_dec Pos.eq_dec s l); [assumption|discriminate]. }
      exists (told hash enc desc c ++ flat_map (reaction (hash (ty_name D)) (enc D v)) l ++ [End c]).
      assert (LOOP : forall w2 snd, minv desc Sources w2 -> registered (m_log w2) = l -> there snd (m_log w2) ->
                mloop hash desc quiet_h (mrun hash enc desc Sources quiet_h quiet_k f) snd (hash (ty_name D)) (enc D v) (S Sources) 0 w2
                = MOk (memits w2 (flat_map (reaction (hash (ty_name D)) (enc D v)) l))).
      { intros w2 snd I2 R2 T2. pose proof (minv_le desc Sources w2 I2) as LE. rewrite (mi_cnt _ _ _ I2), R2 in LE.
        replace (S Sources) with (length l + S (Sources - length l))%nat by lia.
        rewrite (mloop_seg hash desc Sources quiet_h _ snd _ _ (S (Sources - length l)) [] l 0 w2 I2 T2); [|cbn; rewrite R2, app_nil_r; reflexivity|reflexivity].
        destruct (reactions_inv hash desc Sources (hash (ty_name D)) (enc D v) l w2 I2) as [I3 R3].
        apply (mloop_end hash desc Sources quiet_h _ snd _ _ (Sources - length l) _ _ I3). rewrite R3, R2. apply skipn_all2. cbn. lia. }
      assert (I0 : minv desc Sources (memit w (Begin c))) by (apply memit_plain; [exact I|exact Logic.I]).
      assert (R0 : registered (m_log (memit w (Begin c))) = l) by (cbn [memit m_log]; rewrite registered_snoc; reflexivity).
      assert (EW : w1 = memits w (Begin c :: told hash enc desc c ++ flat_map (reaction (hash (ty_name D)) (enc D v)) l ++ [End c])).
      { destruct c as [a|a|a x|D' x]; cbn [sent] in ES; try discriminate; injection ES as <- <-; cbn [mrun] in E1.
        - assert (T0 : there (Some a) (m_log (memit w (Begin (ModSend a x))))) by (cbn [there]; rewrite R0; apply HS; reflexivity).
          rewrite (there_read _ _ T0) in E1. cbn [mbind mbody_run] in E1.
          rewrite LOOP in E1; [| | |].
          + cbn [mbind] in E1. injection E1 as <-. unfold memit, memits, told. cbn [m_tab m_cnt m_log]. f_equal.
            rewrite <- !app_assoc. reflexivity.
          + apply memit_plain; [exact I0|exact Logic.I].
          + cbn [memit m_log]. rewrite registered_snoc. exact R0.
          + cbn [there memit m_log]. rewrite registered_snoc. cbn [reg_step]. exact T0.
        - rewrite LOOP in E1; [|exact I0|exact R0|exact Logic.I]. cbn [mbind] in E1. injection E1 as <-.
          unfold memit, memits, told. cbn [m_tab m_cnt m_log]. f_equal. rewrite <- !app_assoc. reflexivity. }
      split; [rewrite EW; reflexivity|].
      assert (EG : gmem_of w1 = gmem_of w).
      { rewrite EW. unfold gmem_of, memits. cbn [m_tab m_cnt m_log]. f_equal. apply no_construct.
        intros c' H. cbn [In] in H. destruct H as [H|H]; [discriminate|]. rewrite !in_app_iff in H. destruct H as [H|[H|[H|[]]]].
        - destruct c; cbn in ES, H; try discriminate; [destruct H as [H|[]]; discriminate|destruct H].
        - apply in_flat_map in H. destruct H as (b & _ & H). destruct (reaction_cases hash desc (hash (ty_name D)) (enc D v) b) as [EQ|(D1 & EQ & _)];
            rewrite EQ in H; cbn in H; [destruct H|destruct H as [H|[]]; discriminate].
        - injection H as <-. destruct c; cbn in ES; try discriminate; exact Logic.I. }
      rewrite EG. apply (gsteps_reg w Sources c D v I ES HS). }
    destruct c as [a|a|a x|D' x]; [| |apply (SND _ _ eq_refl E)..].
    - cbn [mrun] in E. cbn [memit m_tab m_cnt m_log] in E. unfold add_module in E. rewrite ER, EC in E.
      destruct r as [|y r].
      { rewrite put_out in E by (rewrite app_nil_r, map_length; lia). discriminate. }
      rewrite put_next in E. cbn in E. injection E as <-. exists [End (Construct a)]. cbn [m_log memit]. rewrite <- app_assoc. split; [reflexivity|].
      unfold gmem_of. cbn [memit m_tab m_cnt m_log]. rewrite ER, EC, !registered_snoc. cbn [reg_step].
      pose proof (gsteps_construct a (registered (m_log w)) y r (registered (m_log w)) []) as H. cbn [app remove_first] in H.
      destruct (Pos.eq_dec a a); [exact H|congruence].
    - cbn [mrun] in E. cbn [memit m_tab m_cnt m_log] in E. set (l := registered (m_log w)) in *. rewrite ER, EC in E.
      assert (PT : remove_first a ([] ++ [a]) = []) by (cbn; destruct (Pos.eq_dec a a); [reflexivity|congruence]).
      destruct (in_dec Pos.eq_dec a l) as [HI|HN].
      + destruct (first_split a l HI) as (l1 & l2 & EL & N1). 
        pose proof (remove_from_last a l2 r l1 [] (length l) N1) as HY. specialize (HY ltac:(rewrite EL; reflexivity)).
        cbn [app length] in HY. rewrite <- EL in HY. rewrite HY in E.
        assert (LL : length l = S (length (l1 ++ l2))) by (rewrite EL, !app_length; cbn; lia).
        destruct r as [|z r].
        { rewrite put_out in E by (rewrite app_length, map_length; cbn; lia). discriminate. }
        assert (HP : forall y, put_slot (map Some (l1 ++ l2) ++ y :: z :: r) (length l) None = Ok (map Some (l1 ++ l2) ++ y :: None :: r)).
        { intros y0. replace (map Some (l1 ++ l2) ++ y0 :: z :: r) with ((map Some (l1 ++ l2) ++ [y0]) ++ z :: r) by (rewrite <- app_assoc; reflexivity).
          replace (length l) with (length (map Some (l1 ++ l2) ++ [y0])) by (rewrite snoc_length, map_length; lia).
          rewrite put_app, <- app_assoc. reflexivity. }
        rewrite HP in E. cbn in E. injection E as <-. exists [End (Destroy a)]. cbn [m_log memit]. rewrite <- app_assoc. split; [reflexivity|].
        unfold gmem_of. cbn [memit m_tab m_cnt m_log]. rewrite ER, EC, !registered_snoc. cbn [reg_step]. fold l.
        pose proof (gsteps_destroy a l [] l1 l2 z r N1) as H. rewrite PT in H. rewrite <- EL in H.
        replace (length l - 1)%nat with (length (l1 ++ l2)) by lia.
        exact H.
      + pose proof (remove_from_absent a l [] r (length l) HN) as HY. cbn [app length] in HY. rewrite HY in E. cbn in E. injection E as <-.
        exists [End (Destroy a)]. cbn [m_log memit]. rewrite <- app_assoc. split; [reflexivity|].
        unfold gmem_of. cbn [memit m_tab m_cnt m_log]. rewrite ER, EC, !registered_snoc. cbn [reg_step]. fold l.
        pose proof (gsteps_destroy_none a l [] l r HN) as H. rewrite PT in H. exact H.
  Qed.
End Two.
