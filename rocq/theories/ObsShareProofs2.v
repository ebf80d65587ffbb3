(** Threads that only notify. *)
From Verif Require Export ObsShareProofs.

Lemma since_ret_app a : forall acc b, since_ret acc (a ++ b) = since_ret (since_ret acc a) b.
Proof. induction a as [|[? ? ?|? ?|? ?] a IH]; intros acc b; cbn; auto. Qed.
Lemma by_thread_app t a b : by_thread t (a ++ b) = by_thread t a ++ by_thread t b.
Proof. apply flat_map_app. Qed.
Lemma by_thread_own t es : by_thread t (map (pair t) es) = es.
Proof. induction es as [|e es IH]; [reflexivity|]. unfold by_thread in *. cbn. rewrite Nat.eqb_refl, IH. reflexivity. Qed.
Lemma by_thread_other t u es : u <> t -> by_thread t (map (pair u) es) = [].
Proof.
  intros N. induction es as [|e es IH]; [reflexivity|]. unfold by_thread in *. cbn. destruct (Nat.eqb_spec u t); [congruence|exact IH].
Qed.
Lemma returns_app a b : returns (a ++ b) = returns a ++ returns b.
Proof. apply flat_map_app. Qed.
Lemma snoc_or {A} (l l1 l2 : list A) x y : l ++ [x] = l1 ++ y :: l2 ->
  (l = l1 /\ x = y /\ l2 = []) \/ exists l3, l2 = l3 ++ [x] /\ l = l1 ++ y :: l3.
Proof.
  destruct l2 as [|z l2 _] using rev_ind; intros E.
  - apply app_inj_tail in E. destruct E as [-> ->]. auto.
  - right. exists l2. change (l1 ++ y :: l2 ++ [z]) with (l1 ++ (y :: l2) ++ [z]) in E. rewrite app_assoc in E.
    apply app_inj_tail in E. destruct E as [-> ->]. auto.
Qed.

Lemma firstn_next {A} (l : list A) : forall i x, nth_error l i = Some x -> firstn (S i) l = firstn i l ++ [x].
Proof.
  induction l as [|y l IH]; intros [|i] x E; try discriminate E.
  - injection E as ->. reflexivity.
  - cbn [firstn app]. f_equal. apply (IH i x E).
Qed.

Section Notify.
  Variable self : addr.
  Variable Max : Z.
  Variable l : list addr.               (* the observers registered *)
  Variable tail : list ptr.             (* the slots behind them *)
  Variable progs : nat -> list (call Z).
  Hypothesis fits : (length l <= max_observers Max)%nat.
  Hypothesis only : only_notify progs.
  Notation sstep := (sstep self Max).
  Notation smove := (smove self Max).
  Notation srun := (srun self Max).

  Definition told (v : Z) (k : nat) : list (ev Z) := map (fun o => Data self o v) (firstn k l).
  Definition delivering (pc : spc) : Prop :=
    match pc with SRounds _ | SCall _ _ _ | SLeave _ => True | _ => False end.
  (** Where a notifying thread can be, and what it has done in its call. *)
  Inductive place_ok : spc -> list (call Z) -> list (ev Z) -> Prop :=
  | po_idle : place_ok SIdle [] []
  | po_note v : place_ok (SNote v) [Notify v] []
  | po_inside v : place_ok (SInside v) [Notify v] []
  | po_enter v : place_ok (SEnter v) [Notify v] []
  | po_rounds v : place_ok (SRounds v) [Notify v] []
  | po_call v i : (i < length l)%nat -> place_ok (SCall v i (length l)) [Notify v] (told v i)
  | po_leave v : place_ok (SLeave v) [Notify v] (told v (length l)).

  Definition fine (l1 : list (nat * ev Z)) (x : nat * ev Z) : Prop :=
    match snd x with
    | Ret c e => (e = ok /\ exists v, c = Notify v /\ since_ret [] (by_thread (fst x) l1) = told v (length l)) \/
                 (e = notify_recursion_detected /\ (exists v, c = Notify v) /\ since_ret [] (by_thread (fst x) l1) = [])
    | Data a _ _ => a = self
    | Disc _ _ => False
    end.

  Record ninv (w : sworld) : Prop := {
    n_slots : m_slots (s_mem w) = map Some l ++ tail;
    n_cnt : m_cnt (s_mem w) = length l;
    n_thr : forall t, exists cur, place_ok (s_pc (s_thr w t)) cur (since_ret [] (by_thread t (s_log w))) /\
                      progs t = returns (by_thread t (s_log w)) ++ cur ++ s_calls (s_thr w t);
    n_ins : m_inside (s_mem w) = true -> exists t, delivering (s_pc (s_thr w t));
    n_fine : forall l1 x l2, s_log w = l1 ++ x :: l2 -> fine l1 x;
    n_rej : forall l1 t c l2, s_log w = l1 ++ (t, Ret c notify_recursion_detected) :: l2 ->
            exists u, u <> t /\ (delivering (s_pc (s_thr w u)) \/ exists v, In (u, Ret (Notify v) ok) l2) }.

  Lemma ninv_start : ninv (sstart (Sh (map Some l ++ tail) (length l) false) progs).
  Proof.
    split; cbn; try reflexivity; try discriminate.
    - intros t. exists []. split; [constructor|reflexivity].
    - intros [|? ?] x l2 E; discriminate E.
    - intros [|? ?] t c l2 E; discriminate E.
  Qed.

  Lemma told_next v i o : nth_error l i = Some o -> told v (S i) = told v i ++ [Data self o v].
  Proof.
    unfold told. intros E. rewrite (firstn_next _ _ _ E), map_app. reflexivity.
  Qed.
  Lemma slot_l i o : nth_error l i = Some o -> slot (map Some l ++ tail) i = Ok (Some o).
  Proof.
    intros E. unfold slot. rewrite nth_error_app1 by (rewrite map_length; apply nth_error_Some; congruence).
    rewrite (map_nth_error (@Some addr) i l E). reflexivity.
  Qed.

  (** A thread's move in a call: it can be made, and what it gives. *)
  Lemma own_step w t cur : ninv w ->
    place_ok (s_pc (s_thr w t)) cur (since_ret [] (by_thread t (s_log w))) -> s_pc (s_thr w t) <> SIdle ->
    exists m' pc' es cur', sstep (s_mem w) (s_pc (s_thr w t)) = Ok (m', pc', es) /\
      m_slots m' = m_slots (s_mem w) /\ m_cnt m' = m_cnt (s_mem w) /\
      place_ok pc' cur' (since_ret (since_ret [] (by_thread t (s_log w))) es) /\ returns es ++ cur' = cur /\
      (m_inside m' = true -> delivering pc' \/ (m_inside (s_mem w) = true /\ ~ delivering (s_pc (s_thr w t)))) /\
      (es = [] \/ (exists o v, es = [Data self o v]) \/
       (exists v, es = [Ret (Notify v) ok] /\ since_ret [] (by_thread t (s_log w)) = told v (length l)) \/
       (exists v, es = [Ret (Notify v) notify_recursion_detected] /\ since_ret [] (by_thread t (s_log w)) = [] /\
                  m_inside (s_mem w) = true)) /\
      (delivering (s_pc (s_thr w t)) -> delivering pc' \/ exists v, es = [Ret (Notify v) ok]).
  Proof.
    intros I P N. pose proof (n_slots w I) as ES. pose proof (n_cnt w I) as EC.
    destruct (s_mem w) as [a n ins]. cbn [m_slots m_cnt m_inside] in *. subst a n.
    remember (s_pc (s_thr w t)) as pc. remember (since_ret [] (by_thread t (s_log w))) as ss.
    destruct P as [|v|v|v|v|v i LT|v].
    - congruence.
    - exists (Sh (map Some l ++ tail) (length l) ins), (SInside v), [], [Notify v].
      split; [cbn [ObsShareModel.sstep m_cnt]; replace (max_observers Max <? length l)%nat with false by lia; reflexivity|].
      split; [reflexivity|]. split; [reflexivity|]. split; [constructor|]. split; [reflexivity|].
      split; [cbn; intros H; right; auto|]. split; [auto|cbn; tauto].
    - destruct ins.
      + exists (Sh (map Some l ++ tail) (length l) true), SIdle, [Ret (Notify v) notify_recursion_detected], [].
        split; [reflexivity|]. split; [reflexivity|]. split; [reflexivity|]. split; [constructor|]. split; [reflexivity|].
        split; [cbn; intros H; right; auto|]. split; [|cbn; tauto]. right. right. right. exists v. auto.
      + exists (Sh (map Some l ++ tail) (length l) false), (SEnter v), [], [Notify v].
        split; [reflexivity|]. split; [reflexivity|]. split; [reflexivity|]. split; [constructor|]. split; [reflexivity|].
        split; [discriminate|]. split; [auto|cbn; tauto].
    - exists (Sh (map Some l ++ tail) (length l) true), (SRounds v), [], [Notify v].
      split; [reflexivity|]. split; [reflexivity|]. split; [reflexivity|]. split; [constructor|]. split; [reflexivity|].
      split; [cbn; auto|]. split; [auto|cbn; tauto].
    - exists (Sh (map Some l ++ tail) (length l) ins), (call_next v 0 (length l)), [], [Notify v].
      split; [reflexivity|]. split; [reflexivity|]. split; [reflexivity|].
      assert (D : delivering (call_next v 0 (length l)) /\ place_ok (call_next v 0 (length l)) [Notify v] (told v 0)).
      { unfold call_next. destruct (Nat.eqb_spec 0 (length l)) as [E|E]; (split; [exact Logic.I|]).
        - rewrite E. constructor.
        - constructor. lia. }
      destruct D as [D1 D2]. split; [exact D2|]. split; [reflexivity|]. split; [auto|]. split; [auto|]. auto.
    - destruct (nth_error l i) as [o|] eqn:EO; [|apply nth_error_None in EO; lia].
      exists (Sh (map Some l ++ tail) (length l) ins), (call_next v (S i) (length l)), [Data self o v], [Notify v].
      split; [cbn; rewrite (slot_l i o EO); reflexivity|]. split; [reflexivity|]. split; [reflexivity|].
      assert (D : delivering (call_next v (S i) (length l)) /\ place_ok (call_next v (S i) (length l)) [Notify v] (told v (S i))).
      { unfold call_next. destruct (Nat.eqb_spec (S i) (length l)) as [E|E]; (split; [exact Logic.I|]).
        - rewrite E. constructor.
        - constructor. lia. }
      destruct D as [D1 D2]. rewrite (told_next v i o EO) in D2.
      split; [exact D2|]. split; [reflexivity|]. split; [auto|]. split; [right; left; eauto|]. auto.
    - exists (Sh (map Some l ++ tail) (length l) false), SIdle, [Ret (Notify v) ok], [].
      split; [reflexivity|]. split; [reflexivity|]. split; [reflexivity|]. split; [constructor|]. split; [reflexivity|].
      split; [discriminate|]. split; [right; right; left; eauto|]. intros _. right. eauto.
  Qed.

  Lemma ninv_step w t : ninv w -> exists w', smove w t = Ok w' /\ ninv w'.
  Proof.
    intros I. destruct (n_thr w I t) as (cur & P & EP).
    assert (D : s_pc (s_thr w t) = SIdle \/ s_pc (s_thr w t) <> SIdle) by (destruct (s_pc (s_thr w t)); auto; right; discriminate).
    destruct D as [D|D].
    - unfold ObsShareModel.smove. rewrite D. destruct (s_calls (s_thr w t)) as [|c rest] eqn:EC.
      + exists w. auto.
      + assert (ESS : [] = since_ret [] (by_thread t (s_log w)) /\ cur = []) by (rewrite D in P; inversion P; auto).
        destruct ESS as [ESS ->].
        assert (HC : exists v, c = Notify v) by (apply (only t); rewrite EP; apply in_or_app; right; left; reflexivity).
        destruct HC as [v ->]. eexists. split; [reflexivity|]. split; cbn [s_mem s_thr s_log begin_call].
        * apply (n_slots w I).
        * apply (n_cnt w I).
        * intros a. destruct (Nat.eq_dec a t) as [->|NA].
          -- rewrite sput_same. exists [Notify v]. cbn [s_pc s_calls]. rewrite <- ESS. split; [constructor|rewrite EP; reflexivity].
          -- rewrite sput_other by exact NA. apply (n_thr w I).
        * intros H. destruct (n_ins w I H) as [u HU]. exists u. rewrite sput_other; [exact HU|]. intros ->. rewrite D in HU. exact HU.
        * apply (n_fine w I).
        * intros l1 t1 c1 l2 E. destruct (n_rej w I l1 t1 c1 l2 E) as (u & NU & [HU|HU]); exists u; (split; [exact NU|]); [left|right; exact HU].
          rewrite sput_other; [exact HU|]. intros ->. rewrite D in HU. exact HU.
    - destruct (own_step w t cur I P D) as (m' & pc' & es & cur' & ST & A1 & A2 & A3 & A4 & A5 & A6 & A7).
      rewrite (smove_in self Max w t _ eq_refl D), ST. cbn [bind].
      eexists. split; [reflexivity|]. split; cbn [s_mem s_thr s_log].
      + rewrite A1. apply (n_slots w I).
      + rewrite A2. apply (n_cnt w I).
      + intros a. rewrite by_thread_app. destruct (Nat.eq_dec a t) as [->|NA].
        * rewrite sput_same, by_thread_own, since_ret_app, returns_app. exists cur'. split; [exact A3|].
          cbn [s_calls]. rewrite EP, <- A4, <- !app_assoc. reflexivity.
        * rewrite sput_other, by_thread_other, app_nil_r by auto. apply (n_thr w I).
      + intros H. destruct (A5 H) as [G|[G1 G2]].
        * exists t. rewrite sput_same. exact G.
        * destruct (n_ins w I G1) as [u HU]. exists u. rewrite sput_other; [exact HU|]. intros ->. contradiction.
      + intros l1 x l2 E. destruct A6 as [->|[(o & v & ->)|[(v & -> & HS)|(v & -> & HS & _)]]]; cbn [map] in E.
        * rewrite app_nil_r in E. apply (n_fine w I _ _ _ E).
        * apply snoc_or in E. destruct E as [(<- & <- & _)|(l3 & _ & E)]; [reflexivity|apply (n_fine w I _ _ _ E)].
        * apply snoc_or in E. destruct E as [(<- & <- & _)|(l3 & _ & E)]; [|apply (n_fine w I _ _ _ E)].
          left. cbn. split; [reflexivity|]. exists v. auto.
        * apply snoc_or in E. destruct E as [(<- & <- & _)|(l3 & _ & E)]; [|apply (n_fine w I _ _ _ E)].
          right. cbn. split; [reflexivity|]. split; [eauto|exact HS].
      + assert (KEEP : forall u, delivering (s_pc (s_thr w u)) ->
                  delivering (s_pc (sput (s_thr w) t (STh (s_calls (s_thr w t)) pc') u)) \/ (u = t /\ exists v, es = [Ret (Notify v) ok])).
        { intros u HU. destruct (Nat.eq_dec u t) as [->|NU]; [rewrite sput_same|rewrite sput_other by exact NU; auto].
          destruct (A7 HU) as [G|G]; [left; exact G|right; auto]. }
        assert (OLD : forall l1 t1 c1 l2 rest, s_log w = l1 ++ (t1, Ret c1 notify_recursion_detected) :: l2 -> rest = map (pair t) es ->
                  exists u, u <> t1 /\ (delivering (s_pc (sput (s_thr w) t (STh (s_calls (s_thr w t)) pc') u)) \/
                                        exists v, In (u, Ret (Notify v) ok) (l2 ++ rest))).
        { intros l1 t1 c1 l2 rest E ->. destruct (n_rej w I l1 t1 c1 l2 E) as (u & NU & [HU|(v & HU)]); exists u; (split; [exact NU|]).
          - destruct (KEEP u HU) as [G|(-> & v & ->)]; [left; exact G|right]. exists v. apply in_or_app. right. left. reflexivity.
          - right. exists v. apply in_or_app. left. exact HU. }
        intros l1 t1 c1 l2 E. destruct A6 as [->|[(o & v & ->)|[(v & -> & HS)|(v & -> & HS & HI)]]]; cbn [map] in E.
        * rewrite app_nil_r in E. destruct (OLD l1 t1 c1 l2 [] E eq_refl) as (u & NU & G). exists u. rewrite app_nil_r in G. auto.
        * apply snoc_or in E. destruct E as [(_ & E & _)|(l3 & -> & E)]; [discriminate E|apply (OLD _ _ _ _ _ E eq_refl)].
        * apply snoc_or in E. destruct E as [(_ & E & _)|(l3 & -> & E)]; [discriminate E|apply (OLD _ _ _ _ _ E eq_refl)].
        * apply snoc_or in E. destruct E as [(_ & E & ->)|(l3 & -> & E)]; [|apply (OLD _ _ _ _ _ E eq_refl)].
          injection E as <- _. destruct (n_ins w I HI) as [u HU].
          assert (NU : u <> t).
          { intros ->. destruct (A7 HU) as [G|(v' & G)]; [|discriminate G].
            destruct (s_pc (s_thr w t)); try destruct HU; cbn in ST; try discriminate ST.
            destruct (slot (m_slots (s_mem w)) i) as [[o|]| |]; cbn in ST; discriminate ST. }
          exists u. split; [exact NU|]. left. rewrite sput_other by exact NU. exact HU.
  Qed.

  Lemma ninv_run s : forall w, ninv w -> exists w', srun w s = Ok w' /\ ninv w'.
  Proof.
    induction s as [|t s IH]; intros w I; cbn; [eauto|]. destruct (ninv_step w t I) as (w1 & -> & I1). cbn. apply IH, I1.
  Qed.

  (** Own steps a thread still needs. *)
  Definition cost (pc : spc) : nat :=
    match pc with
    | SNote _ => 5 + length l
    | SInside _ => 4 + length l
    | SEnter _ => 3 + length l
    | SRounds _ => 2 + length l
    | SCall _ i n => 1 + (length l - i)
    | SLeave _ => 1
    | _ => 0
    end.
  Definition need (th : sthread) : nat := length (s_calls th) * (6 + length l) + cost (s_pc th).
  Lemma need_step w t w' : ninv w -> smove w t = Ok w' ->
    (need (s_thr w' t) <= need (s_thr w t) - 1)%nat /\ forall u, u <> t -> s_thr w' u = s_thr w u.
  Proof.
    intros I E. destruct (n_thr w I t) as (cur & P & EP).
    pose proof (n_slots w I) as ES. pose proof (n_cnt w I) as EC.
    assert (D : s_pc (s_thr w t) = SIdle \/ s_pc (s_thr w t) <> SIdle) by (destruct (s_pc (s_thr w t)); auto; right; discriminate).
    destruct D as [D|D].
    - unfold ObsShareModel.smove in E. rewrite D in E. destruct (s_calls (s_thr w t)) as [|c rest] eqn:ECL.
      + injection E as <-. split; [|auto]. unfold need. rewrite ECL, D. cbn. lia.
      + injection E as <-. cbn [s_thr]. rewrite sput_same. split; [|intros u NU; apply sput_other, NU].
        assert (HC : exists v, c = Notify v) by (apply (only t); rewrite EP; apply in_or_app; right; apply in_or_app; right; left; reflexivity).
        destruct HC as [v ->]. unfold need. rewrite ECL, D. cbn. lia.
    - rewrite (smove_in self Max w t _ eq_refl D) in E.
      destruct (sstep (s_mem w) (s_pc (s_thr w t))) as [[[m' pc'] es]| |] eqn:ST; cbn [bind] in E; try discriminate.
      injection E as <-. cbn [s_thr]. rewrite sput_same. split; [|intros u NU; apply sput_other, NU].
      unfold need. cbn [s_calls s_pc].
      assert (G : (cost pc' <= cost (s_pc (s_thr w t)) - 1 /\ 0 < cost (s_pc (s_thr w t)))%nat); [|lia].
      destruct (s_mem w) as [a n ins]. cbn [m_slots m_cnt] in *. subst a n. clear EP I.
      destruct P as [|v|v|v|v|v i LT|v]; cbn [ObsShareModel.sstep m_cnt m_inside m_slots] in ST.
      + congruence.
      + destruct (max_observers Max <? length l)%nat; injection ST as _ <- _; cbn; lia.
      + destruct ins; injection ST as _ <- _; cbn; lia.
      + injection ST as _ <- _; cbn; lia.
      + injection ST as _ <- _. unfold call_next. destruct (0 =? length l)%nat; cbn; lia.
      + destruct (slot (map Some l ++ tail) i) as [[o|]| |]; cbn [bind] in ST; try discriminate.
        injection ST as _ <- _. unfold call_next. destruct (S i =? length l)%nat eqn:EQ; cbn [cost]; lia.
      + injection ST as _ <- _; cbn; lia.
  Qed.
  Lemma need_run s : forall w w' t, ninv w -> srun w s = Ok w' -> (need (s_thr w' t) <= need (s_thr w t) - count_occ Nat.eq_dec s t)%nat.
  Proof.
    induction s as [|u s IH]; intros w w' t I E; cbn [ObsShareModel.srun] in E.
    - injection E as <-. cbn. lia.
    - destruct (ninv_step w u I) as (w1 & E1 & I1). rewrite E1 in E. cbn [bind] in E. specialize (IH w1 w' t I1 E).
      destruct (need_step w u w1 I E1) as [H1 H2]. cbn [count_occ]. destruct (Nat.eq_dec u t) as [->|N]; [lia|].
      rewrite (H2 t) in IH by auto. exact IH.
  Qed.
End Notify.
