(** One thread of the shared observable, followed through a call. *)
From Verif Require Export ObsShareSpec ObserverProofs3.

Section One.
  Variable self : addr.
  Variable Max : Z.
  Notation sstep := (sstep self Max).
  Notation smove := (smove self Max).
  Notation srun := (srun self Max).

  (** Several accesses in a row inside one call. *)
  Inductive steps : shared -> spc -> shared -> spc -> list (ev Z) -> Prop :=
  | steps_nil m pc : steps m pc m pc []
  | steps_cons m pc m1 pc1 e1 m2 pc2 e2 :
      pc <> SIdle -> sstep m pc = Ok (m1, pc1, e1) -> steps m1 pc1 m2 pc2 e2 -> steps m pc m2 pc2 (e1 ++ e2).

  Lemma steps_app m pc m1 pc1 e1 m2 pc2 e2 :
    steps m pc m1 pc1 e1 -> steps m1 pc1 m2 pc2 e2 -> steps m pc m2 pc2 (e1 ++ e2).
  Proof.
    intros H. induction H as [|m pc m3 pc3 e3 m1 pc1 e1 N E H IH]; intros G; [exact G|].
    rewrite <- app_assoc. econstructor; [exact N|exact E|apply IH, G].
  Qed.
  Lemma steps_one m pc m1 pc1 e1 : pc <> SIdle -> sstep m pc = Ok (m1, pc1, e1) -> steps m pc m1 pc1 e1.
  Proof. intros N E. rewrite <- (app_nil_r e1). econstructor; [exact N|exact E|constructor]. Qed.
  Lemma steps_then m pc m1 pc1 m2 pc2 e2 :
    pc <> SIdle -> sstep m pc = Ok (m1, pc1, []) -> steps m1 pc1 m2 pc2 e2 -> steps m pc m2 pc2 e2.
  Proof. intros N E H. change e2 with ([] ++ e2). econstructor; [exact N|exact E|exact H]. Qed.
  Lemma steps_trans m pc m1 pc1 m2 pc2 e :
    steps m pc m1 pc1 [] -> steps m1 pc1 m2 pc2 e -> steps m pc m2 pc2 e.
  Proof. intros H G. change e with ([] ++ e). eapply steps_app; eassumption. Qed.

  (** The same in the machine of threads. *)
  Lemma srun_app s1 : forall w s2, srun w (s1 ++ s2) = (w' <- srun w s1 ;; srun w' s2).
  Proof.
    induction s1 as [|t s1 IH]; intros w s2; cbn; [reflexivity|]. destruct (smove w t); cbn; auto.
  Qed.
  Lemma srun_then w s1 w1 s2 : srun w s1 = Ok w1 -> srun w (s1 ++ s2) = srun w1 s2.
  Proof. intros E. rewrite srun_app, E. reflexivity. Qed.
  Lemma smove_in w t pc : s_pc (s_thr w t) = pc -> pc <> SIdle ->
    smove w t = (' (m, pc', es) <- sstep (s_mem w) pc ;;
                 Ok (SW m (sput (s_thr w) t (STh (s_calls (s_thr w t)) pc')) (s_log w ++ map (pair t) es))).
  Proof. intros E N. unfold smove. rewrite E. destruct pc; congruence || reflexivity. Qed.
  Lemma sput_same f t x : sput f t x t = x.
  Proof. unfold sput. rewrite Nat.eqb_refl. reflexivity. Qed.
  Lemma sput_other f t x a : a <> t -> sput f t x a = f a.
  Proof. intros N. unfold sput. destruct (Nat.eqb_spec a t); congruence. Qed.

  (** [t] has moved from where it was in [w]: memory, place and log are as given. *)
  Record moved (t : nat) (w w' : sworld) (m : shared) (th : sthread) (es : list (ev Z)) : Prop := {
    mv_mem : s_mem w' = m;
    mv_own : s_thr w' t = th;
    mv_others : forall a, a <> t -> s_thr w' a = s_thr w a;
    mv_log : s_log w' = s_log w ++ map (pair t) es }.

  Lemma run_steps m pc m' pc' es t : steps m pc m' pc' es -> forall w,
    s_mem w = m -> s_pc (s_thr w t) = pc ->
    exists k w', srun w (repeat t k) = Ok w' /\ moved t w w' m' (STh (s_calls (s_thr w t)) pc') es.
  Proof.
    intros H. induction H as [m pc|m pc m1 pc1 e1 m2 pc2 e2 N E H IH]; intros w EM EP.
    - exists 0%nat, w. split; [reflexivity|]. split; [exact EM|destruct (s_thr w t); cbn in *; congruence|reflexivity|symmetry; apply app_nil_r].
    - set (w1 := SW m1 (sput (s_thr w) t (STh (s_calls (s_thr w t)) pc1)) (s_log w ++ map (pair t) e1)).
      destruct (IH w1 eq_refl) as (k & w' & R & [A1 A2 A3 A4]); [cbn; rewrite sput_same; reflexivity|].
      exists (S k), w'. split.
      + cbn [repeat ObsShareModel.srun]. rewrite (smove_in w t pc EP N), EM, E. exact R.
      + split; [exact A1|rewrite A2; cbn; rewrite sput_same; reflexivity| |].
        * intros a NA. rewrite (A3 a NA). cbn. apply sput_other, NA.
        * rewrite A4. cbn. rewrite map_app, app_assoc. reflexivity.
  Qed.
  (** From outside a call. *)
  Lemma run_call m c m' pc' es t w rest : steps m (begin_call c) m' pc' es ->
    s_mem w = m -> s_thr w t = STh (c :: rest) SIdle ->
    exists k w', srun w (repeat t k) = Ok w' /\ moved t w w' m' (STh rest pc') es.
  Proof.
    intros H EM ET. set (w1 := SW (s_mem w) (sput (s_thr w) t (STh rest (begin_call c))) (s_log w)).
    destruct (run_steps _ _ _ _ _ t H w1 EM) as (k & w' & R & [A1 A2 A3 A4]); [cbn; rewrite sput_same; reflexivity|].
    exists (S k), w'. split.
    - cbn [repeat ObsShareModel.srun]. unfold ObsShareModel.smove at 1. rewrite ET. cbn. exact R.
    - split; [exact A1|rewrite A2; cbn; rewrite sput_same; reflexivity| |exact A4].
      intros a NA. rewrite (A3 a NA). cbn. apply sput_other, NA.
  Qed.

  (** ** The loops *)
  Lemma steps_scan m o k : forall i b, contains_from (m_slots m) i k o = Ok b ->
    steps m (scan_next o i (i + k)) m (if b then SIdle else SCount o) (if b then [Ret (Add o) already_contains] else []).
  Proof.
    induction k as [|k IH]; intros i b E; cbn [contains_from] in E; unfold scan_next.
    - injection E as <-. replace (i =? i + 0)%nat with true by lia. constructor.
    - replace (i =? i + S k)%nat with false by lia.
      destruct (slot (m_slots m) i) as [x| |] eqn:ES; cbn [bind] in E; try discriminate.
      destruct (points_to x o) eqn:EP.
      + injection E as <-. apply steps_one; [discriminate|]. cbn. rewrite ES. cbn. rewrite EP. reflexivity.
      + eapply steps_then; [discriminate|cbn; rewrite ES; cbn; rewrite EP; reflexivity|].
        replace (i + S k)%nat with (S i + k)%nat by lia. apply IH, E.
  Qed.
  Lemma steps_find m o k : forall i f, find_from (m_slots m) i k o = Ok f ->
    (f = (i + k)%nat /\ steps m (find_next o i (i + k)) m (SLeft o f) []) \/
    ((i <= f < i + k)%nat /\ steps m (find_next o i (i + k)) m (look_next o f (S f) (i + k)) []).
  Proof.
    induction k as [|k IH]; intros i f E; cbn [find_from] in E; unfold find_next.
    - injection E as <-. left. split; [lia|]. replace (i =? i + 0)%nat with true by lia.
      replace (i + 0)%nat with i by lia. constructor.
    - replace (i =? i + S k)%nat with false by lia.
      destruct (slot (m_slots m) i) as [x| |] eqn:ES; cbn [bind] in E; try discriminate.
      destruct (points_to x o) eqn:EP.
      + injection E as <-. right. split; [lia|]. apply steps_one; [discriminate|]. cbn. rewrite ES. cbn. rewrite EP. reflexivity.
      + replace (i + S k)%nat with (S i + k)%nat by lia.
        assert (ST : sstep m (SFind o i (S i + k)) = Ok (m, find_next o (S i) (S i + k), [])) by (cbn; rewrite ES; cbn; rewrite EP; reflexivity).
        destruct (IH (S i) f E) as [(A & H)|(A & H)]; [left|right]; (split; [lia|]); (eapply steps_then; [discriminate|exact ST|exact H]).
  Qed.
  Lemma steps_compact o k : forall a c ins r i a' r', compact a r i k o = Ok (a', r') ->
    steps (Sh a c ins) (look_next o r i (i + k)) (Sh a' c ins) (SLeft o r') [].
  Proof.
    induction k as [|k IH]; intros a c ins r i a' r' E; cbn [compact] in E; unfold look_next.
    - injection E as <- <-. replace (i =? i + 0)%nat with true by lia. constructor.
    - replace (i =? i + S k)%nat with false by lia. replace (i + S k)%nat with (S i + k)%nat by lia.
      destruct (slot a i) as [x| |] eqn:ES; cbn [bind] in E; try discriminate.
      destruct (points_to x o) eqn:EP.
      + eapply steps_then; [discriminate|cbn; rewrite ES; cbn; rewrite EP; reflexivity|]. apply IH, E.
      + destruct (put_slot a r x) as [a1| |] eqn:EU; cbn [bind] in E; try discriminate.
        eapply steps_then; [discriminate|cbn; rewrite ES; cbn; rewrite EP; reflexivity|].
        eapply steps_then; [discriminate|cbn; rewrite EU; reflexivity|]. apply IH, E.
  Qed.
  Lemma steps_remove o a c ins a' r : std_remove a c o = Ok (a', r) ->
    steps (Sh a c ins) (SRange o) (Sh a' c ins) (SLeft o r) [].
  Proof.
    intros E. unfold std_remove in E. destruct (find_from a 0 c o) as [f| |] eqn:EF; cbn [bind] in E; try discriminate.
    eapply steps_then; [discriminate|reflexivity|]. cbn [m_cnt].
    destruct (steps_find (Sh a c ins) o c 0 f EF) as [(A & H)|(A & H)]; cbn [Nat.add] in *.
    - subst f. rewrite Nat.eqb_refl in E. injection E as <- <-. exact H.
    - replace (f =? c)%nat with false in E by lia. eapply steps_trans; [exact H|].
      replace c with (S f + (c - S f))%nat at 2 by lia. apply steps_compact, E.
  Qed.
  Lemma steps_calls m v l : forall p t, m_slots m = map Some (p ++ l) ++ t ->
    steps m (call_next v (length p) (length p + length l)) m (SLeave v) (map (fun o => Data self o v) l).
  Proof.
    induction l as [|o l IH]; intros p t E; unfold call_next; cbn [length map].
    - replace (length p =? length p + 0)%nat with true by lia. constructor.
    - replace (length p =? length p + S (length l))%nat with false by lia.
      specialize (IH (p ++ [o]) t). rewrite <- app_assoc in IH. specialize (IH E). rewrite app_length in IH. cbn [length] in IH.
      replace (length p + 1)%nat with (S (length p)) in IH by lia.
      replace (length p + S (length l))%nat with (S (length p) + length l)%nat by lia.
      change (Data self o v :: ?x) with ([Data self o v] ++ x). econstructor; [discriminate| |exact IH].
      cbn. rewrite E, map_app, <- app_assoc. cbn [map app].
      rewrite <- (map_length (@Some addr) p) at 1. rewrite slot_app. reflexivity.
  Qed.
  Lemma steps_discs m l : forall p t, m_slots m = map Some (p ++ l) ++ t ->
    steps m (disc_next (length p) (length p + length l)) m SEmpty (map (Disc self) l).
  Proof.
    induction l as [|o l IH]; intros p t E; unfold disc_next; cbn [length map].
    - replace (length p =? length p + 0)%nat with true by lia. constructor.
    - replace (length p =? length p + S (length l))%nat with false by lia.
      specialize (IH (p ++ [o]) t). rewrite <- app_assoc in IH. specialize (IH E). rewrite app_length in IH. cbn [length] in IH.
      replace (length p + 1)%nat with (S (length p)) in IH by lia.
      replace (length p + S (length l))%nat with (S (length p) + length l)%nat by lia.
      change (Disc self o :: ?x) with ([Disc self o] ++ x). econstructor; [discriminate| |exact IH].
      cbn. rewrite E, map_app, <- app_assoc. cbn [map app].
      rewrite <- (map_length (@Some addr) p) at 1. rewrite slot_app. reflexivity.
  Qed.

  (** ** Whole calls: as in the single-threaded model *)
  Notation q_data := (fun (_ : list (ev Z)) (_ : addr) (_ : Z) => @Return Z).
  Notation q_disc := (fun (_ : list (ev Z)) (_ : addr) => @Return Z).
  Lemma loop_calls step v k : forall m i w w1, m_slots m = w_slots w ->
    loop (fun j => call_data self q_data step j v) i k w = Ok w1 ->
    w_slots w1 = w_slots w /\ w_cnt w1 = w_cnt w /\ w_inside w1 = w_inside w /\
    exists es, w_log w1 = w_log w ++ es /\ steps m (call_next v i (i + k)) m (SLeave v) es.
  Proof.
    induction k as [|k IH]; intros m i w w1 EM E; cbn [loop] in E; unfold call_next.
    - injection E as <-. repeat split. exists []. split; [symmetry; apply app_nil_r|].
      replace (i =? i + 0)%nat with true by lia. constructor.
    - replace (i =? i + S k)%nat with false by lia. replace (i + S k)%nat with (S i + k)%nat by lia.
      unfold call_data at 1 in E. destruct (slot (w_slots w) i) as [[o|]| |] eqn:ES; cbn [bind run_body] in E; try discriminate.
      destruct (IH m (S i) (emit w (Data self o v)) w1 EM E) as (A1 & A2 & A3 & es & A4 & H).
      split; [exact A1|]. split; [exact A2|]. split; [exact A3|]. exists (Data self o v :: es).
      split; [rewrite A4; cbn; rewrite <- app_assoc; reflexivity|].
      change (Data self o v :: es) with ([Data self o v] ++ es). econstructor; [discriminate| |exact H].
      cbn. rewrite EM, ES. reflexivity.
  Qed.
  Lemma loop_discs step k : forall m i w w1, m_slots m = w_slots w ->
    loop (call_disc self q_disc step) i k w = Ok w1 ->
    w_slots w1 = w_slots w /\ w_cnt w1 = w_cnt w /\ w_inside w1 = w_inside w /\
    exists es, w_log w1 = w_log w ++ es /\ steps m (disc_next i (i + k)) m SEmpty es.
  Proof.
    induction k as [|k IH]; intros m i w w1 EM E; cbn [loop] in E; unfold disc_next.
    - injection E as <-. repeat split. exists []. split; [symmetry; apply app_nil_r|].
      replace (i =? i + 0)%nat with true by lia. constructor.
    - replace (i =? i + S k)%nat with false by lia. replace (i + S k)%nat with (S i + k)%nat by lia.
      unfold call_disc at 1 in E. destruct (slot (w_slots w) i) as [[o|]| |] eqn:ES; cbn [bind run_body] in E; try discriminate.
      destruct (IH m (S i) (emit w (Disc self o)) w1 EM E) as (A1 & A2 & A3 & es & A4 & H).
      split; [exact A1|]. split; [exact A2|]. split; [exact A3|]. exists (Disc self o :: es).
      split; [rewrite A4; cbn; rewrite <- app_assoc; reflexivity|].
      change (Disc self o :: es) with ([Disc self o] ++ es). econstructor; [discriminate| |exact H].
      cbn. rewrite EM, ES. reflexivity.
  Qed.
  Lemma steps_alone m c m' es : alone self Max m c = Ok (m', es) -> steps m (begin_call c) m' SIdle es.
  Proof.
    destruct m as [a n ins]. unfold alone. cbn [m_slots m_cnt m_inside].
    destruct c as [o|o| |v]; cbn [ObserverModel.run w_slots w_cnt w_inside w_log begin_call]; intros E.
    - destruct (add_observer Max a n o) as [[[a1 n1] e]| |] eqn:EA; cbn in E; try discriminate.
      injection E as <- <-. unfold add_observer in EA.
      destruct (max_observers Max <=? n)%nat eqn:EM.
      { injection EA as <- <- <-. apply steps_one; [discriminate|]. cbn [ObsShareModel.sstep m_cnt]. rewrite EM. reflexivity. }
      destruct (contains_from a 0 n o) as [b| |] eqn:EC; cbn [bind] in EA; try discriminate.
      eapply steps_then; [discriminate|cbn [ObsShareModel.sstep m_cnt]; rewrite EM; reflexivity|].
      eapply steps_then; [discriminate|reflexivity|]. cbn [m_cnt].
      pose proof (steps_scan (Sh a n ins) o n 0 b EC) as H. cbn [Nat.add] in H.
      destruct b; cbn [negb] in EA.
      + injection EA as <- <- <-. exact H.
      + destruct (put_slot a n (Some o)) as [a2| |] eqn:EP; cbn [bind] in EA; try discriminate. injection EA as <- <- <-.
        eapply steps_trans; [exact H|]. eapply steps_then; [discriminate|reflexivity|].
        eapply steps_then; [discriminate|reflexivity|]. apply steps_one; [discriminate|]. cbn. rewrite EP. reflexivity.
    - destruct (remove_observer Max a n o) as [[[a1 n1] e]| |] eqn:EA; cbn in E; try discriminate.
      injection E as <- <-. unfold remove_observer in EA.
      destruct (max_observers Max <? n)%nat eqn:EM.
      { injection EA as <- <- <-. apply steps_one; [discriminate|]. cbn [ObsShareModel.sstep m_cnt]. rewrite EM. reflexivity. }
      eapply steps_then; [discriminate|cbn [ObsShareModel.sstep m_cnt]; rewrite EM; reflexivity|].
      destruct (n =? 0)%nat eqn:EZ.
      { injection EA as <- <- <-. apply steps_one; [discriminate|]. cbn. rewrite EZ. reflexivity. }
      eapply steps_then; [discriminate|cbn; rewrite EZ; reflexivity|].
      destruct (std_remove a n o) as [[a2 it]| |] eqn:ER; cbn [bind] in EA; try discriminate.
      eapply steps_trans; [apply steps_remove, ER|].
      assert (LE : (it <= n)%nat).
      { unfold std_remove in ER. destruct (find_from a 0 n o) as [f| |] eqn:EF; cbn [bind] in ER; try discriminate.
        destruct (steps_find (Sh a n ins) o n 0 f EF) as [(A & _)|(A & _)]; cbn [Nat.add] in A.
        - subst f. rewrite Nat.eqb_refl in ER. injection ER as _ <-. lia.
        - replace (f =? n)%nat with false in ER by lia.
          assert (G : forall k b r i b' r', compact b r i k o = Ok (b', r') -> (r' <= r + k)%nat).
          { induction k as [|k IH]; intros b r i b' r' H; cbn [compact] in H; [injection H as _ <-; lia|].
            destruct (slot b i) as [x| |]; cbn [bind] in H; try discriminate.
            destruct (points_to x o); [apply IH in H; lia|].
            destruct (put_slot b r x); cbn [bind] in H; try discriminate. apply IH in H. lia. }
          apply G in ER. lia. }
      destruct (n - it =? 0)%nat eqn:EI; cbn [negb] in EA; injection EA as <- <- <-.
      + apply steps_one; [discriminate|]. cbn. replace (n =? it)%nat with true by lia. reflexivity.
      + eapply steps_then; [discriminate|cbn; replace (n =? it)%nat with false by lia; reflexivity|].
        apply steps_one; [discriminate|reflexivity].
    - match type of E with context [loop ?f 0 n ?w] => destruct (loop f 0 n w) as [w1| |] eqn:EL end; cbn in E; try discriminate. injection E as <- <-.
      destruct (loop_discs _ n (Sh a n ins) 0 (W a n ins []) w1 eq_refl EL) as (A1 & A2 & A3 & es & A4 & H).
      cbn [Nat.add] in H. cbn in A1, A2, A3, A4 |- *. unfold mem_of. cbn. rewrite A1, A3, A4.
      eapply steps_then; [discriminate|reflexivity|]. eapply steps_app; [exact H|]. apply steps_one; [discriminate|reflexivity].
    - destruct (max_observers Max <? n)%nat eqn:EM.
      { injection E as <- <-. apply steps_one; [discriminate|]. cbn [ObsShareModel.sstep m_cnt]. rewrite EM. reflexivity. }
      eapply steps_then; [discriminate|cbn [ObsShareModel.sstep m_cnt]; rewrite EM; reflexivity|].
      destruct ins.
      { injection E as <- <-. apply steps_one; [discriminate|]. reflexivity. }
      eapply steps_then; [discriminate|reflexivity|]. eapply steps_then; [discriminate|reflexivity|].
      eapply steps_then; [discriminate|reflexivity|]. cbn [m_slots m_cnt].
      match type of E with context [loop ?f 0 n ?w] => destruct (loop f 0 n w) as [w1| |] eqn:EL end; cbn in E; try discriminate. injection E as <- <-.
      destruct (loop_calls _ v n (Sh a n true) 0 (W a n true []) w1 eq_refl EL) as (A1 & A2 & A3 & es & A4 & H).
      cbn [Nat.add] in H. cbn in A1, A2, A3, A4 |- *. unfold mem_of. cbn. rewrite A1, A2, A4.
      eapply steps_app; [exact H|]. apply steps_one; [discriminate|reflexivity].
  Qed.
End One.
