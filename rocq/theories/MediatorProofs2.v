(** Proofs about modules destroyed while a message is distributed. *)
From Verif Require Export MediatorProofs.

Section Destroyer.
  Variable hash : string -> Z.
  Variable desc : addr -> mdesc.
  Variable Sources : nat.
  Variable handler : list mev -> addr -> mty -> list Z -> mbody.
  Notation minv := (minv desc Sources).
  Notation reaction := (reaction desc hash).

  Definition memits (w : mworld) (s : list mev) : mworld := MW (m_tab w) (m_cnt w) (m_log w ++ s).
  Lemma memits_nil w : memits w [] = w.
  Proof. destruct w. unfold memits. rewrite app_nil_r. reflexivity. Qed.
  Lemma memits_app w s1 s2 : memits (memits w s1) s2 = memits w (s1 ++ s2).
  Proof. unfold memits. cbn. rewrite app_assoc. reflexivity. Qed.
  Lemma memits_one w e : memit w e = memits w [e].
  Proof. reflexivity. Qed.

  Lemma reaction_cases id bs a : reaction id bs a = [] \/
    exists D, reaction id bs a = [Recv a D bs] /\ length bs = ty_size D /\ In D (md_recvs (desc a)).
  Proof.
    unfold MediatorProofs.reaction. destruct (id_of hash desc a =? id); [left; reflexivity|].
    destruct (find _ _) as [D|] eqn:F; [|left; reflexivity].
    destruct (Nat.eqb_spec (ty_size D) (length bs)) as [E|N]; [|left; reflexivity].
    right. exists D. apply find_some in F. split; [reflexivity|]. split; [symmetry; exact E|tauto].
  Qed.
  Lemma reaction_inv id bs a w : minv w -> minv (memits w (reaction id bs a)) /\
    registered (m_log (memits w (reaction id bs a))) = registered (m_log w).
  Proof.
    intros I. destruct (reaction_cases id bs a) as [-> | (D & -> & H1 & H2)].
    - rewrite memits_nil. tauto.
    - split; [|cbn [memits m_log]; rewrite registered_snoc; reflexivity].
      apply memit_plain; [exact I|]. split; assumption.
  Qed.
  Lemma reactions_inv id bs l : forall w, minv w -> minv (memits w (flat_map (reaction id bs) l)) /\
    registered (m_log (memits w (flat_map (reaction id bs) l))) = registered (m_log w).
  Proof.
    induction l as [|a l IH]; intros w I; cbn [flat_map]; [rewrite memits_nil; tauto|].
    rewrite <- memits_app. destruct (reaction_inv id bs a w I) as [I1 R1].
    destruct (IH _ I1) as [I2 R2]. split; [exact I2|]. rewrite R2. exact R1.
  Qed.

  Variable step : mworld -> mcall -> mres mworld.

  (** What running the handler of the module amounts to. *)
  Definition react (id : Z) (bs : list Z) (a : addr) (w : mworld) : mres mworld :=
    if id_of hash desc a =? id then MOk w
    else match find (fun D => id =? hash (ty_name D)) (md_recvs (desc a)) with
         | Some D => if (ty_size D =? length bs)%nat
                     then mbody_run step (handler (m_log w) a D bs) (memit w (Recv a D bs)) else MOk w
         | None => MOk w
         end.
  Lemma receiver_react a id bs recvs w :
    receiver_converter hash handler step a recvs id bs w =
    match find (fun D => id =? hash (ty_name D)) recvs with
    | Some D => if (ty_size D =? length bs)%nat
                then mbody_run step (handler (m_log w) a D bs) (memit w (Recv a D bs)) else MOk w
    | None => MOk w
    end.
  Proof.
    induction recvs as [|D recvs IH]; cbn [receiver_converter find]; [reflexivity|].
    destruct (id =? hash (ty_name D)); [|exact IH]. unfold convert_field.
    destruct (Nat.eqb_spec (ty_size D) (length bs)) as [E|N]; cbn [negb]; [|reflexivity].
    rewrite E, read_bytes_all. reflexivity.
  Qed.
  Lemma mloop_step snd id bs k i w a l : minv w -> there snd (m_log w) ->
    skipn i (registered (m_log w)) = a :: l ->
    mloop hash desc handler step snd id bs (S k) i w =
    mbind (react id bs a w) (mloop hash desc handler step snd id bs k (S i)).
  Proof.
    intros I TH SK. cbn [mloop].
    assert (L : (i < m_cnt w)%nat).
    { rewrite (mi_cnt _ _ _ I). destruct (Nat.lt_ge_cases i (length (registered (m_log w)))) as [L|L]; [exact L|].
      rewrite skipn_all2 in SK by exact L. discriminate. }
    rewrite (proj2 (Nat.ltb_lt _ _) L).
    destruct (minv_slot desc Sources w i I L) as (b & Hb & Hn). rewrite Hb. cbn [lift mbind].
    rewrite (skipn_nth _ _ _ Hn) in SK. inversion SK; subst b.
    rewrite (there_read snd w TH). cbn [mbind]. unfold react.
    destruct (id_of hash desc a =? id); [reflexivity|]. rewrite receiver_react. reflexivity.
  Qed.
  Lemma mloop_end snd id bs k i w : minv w -> skipn i (registered (m_log w)) = [] ->
    mloop hash desc handler step snd id bs (S k) i w = MOk w.
  Proof.
    intros I SK. cbn [mloop].
    assert (L : (m_cnt w <= i)%nat).
    { rewrite (mi_cnt _ _ _ I). pose proof (skipn_length i (registered (m_log w))) as E. rewrite SK in E. cbn in E. lia. }
    rewrite (proj2 (Nat.ltb_ge _ _) L). reflexivity.
  Qed.
  Lemma mloop_gone s id bs k i w a l : minv w -> ~ In s (registered (m_log w)) ->
    skipn i (registered (m_log w)) = a :: l ->
    mloop hash desc handler step (Some s) id bs (S k) i w = MUB (m_log w).
  Proof.
    intros I TH SK. cbn [mloop].
    assert (L : (i < m_cnt w)%nat).
    { rewrite (mi_cnt _ _ _ I). destruct (Nat.lt_ge_cases i (length (registered (m_log w)))) as [L|L]; [exact L|].
      rewrite skipn_all2 in SK by exact L. discriminate. }
    rewrite (proj2 (Nat.ltb_lt _ _) L).
    destruct (minv_slot desc Sources w i I L) as (b & Hb & Hn). rewrite Hb. cbn [lift mbind].
    unfold sender_read. destruct (in_dec Pos.eq_dec s (registered (m_log w))); [contradiction|reflexivity].
  Qed.

  Lemma mloop_seg snd id bs k q l : forall i w, minv w -> there snd (m_log w) ->
    skipn i (registered (m_log w)) = l ++ q ->
    (forall log a D b, In a l -> handler log a D b = MReturn) ->
    mloop hash desc handler step snd id bs (length l + k) i w =
    mloop hash desc handler step snd id bs k (i + length l) (memits w (flat_map (reaction id bs) l)).
  Proof.
    induction l as [|a l IH]; intros i w I TH SK HS.
    - cbn [length flat_map plus]. rewrite memits_nil, Nat.add_0_r. reflexivity.
    - cbn [length plus flat_map app] in *. rewrite (mloop_step snd id bs (length l + k) i w a (l ++ q) I TH SK).
      assert (RE : react id bs a w = MOk (memits w (reaction id bs a))).
      { unfold react, MediatorProofs.reaction. destruct (id_of hash desc a =? id); [rewrite memits_nil; reflexivity|].
        destruct (find _ _) as [D|]; [|rewrite memits_nil; reflexivity].
        destruct (ty_size D =? length bs)%nat; [|rewrite memits_nil; reflexivity].
        rewrite HS by (left; reflexivity). reflexivity. }
      rewrite RE. cbn [mbind]. destruct (reaction_inv id bs a w I) as [I1 R1].
      rewrite IH; [|exact I1|exact (there_reg _ _ _ R1 TH)| |].
      + rewrite memits_app. replace (i + S (length l))%nat with (S i + length l)%nat by lia. reflexivity.
      + rewrite R1. assert (E : skipn (S i) (registered (m_log w)) = skipn 1 (skipn i (registered (m_log w)))).
        { generalize (registered (m_log w)) as r. clear. induction i as [|i IH]; intros [|x r]; try reflexivity.
          cbn [skipn] in *. apply IH. }
        rewrite E, SK. reflexivity.
      + intros log b D bb Hb. apply HS. right. exact Hb.
  Qed.
End Destroyer.

(** What is left of the list after [d]. *)
Lemma skipn_removed x p d q : NoDup (p ++ d :: q) -> In x (p ++ d :: q) ->
  skipn (S (length p)) (remove_first x (p ++ d :: q)) = still_reached x q.
Proof.
  intros ND HI. unfold still_reached.
  destruct (in_dec Pos.eq_dec x q) as [HQ|HQ].
  - assert (NP : ~ In x (p ++ [d])).
    { intros H. replace (p ++ d :: q) with ((p ++ [d]) ++ q) in ND by (rewrite <- app_assoc; reflexivity).
      revert H HQ ND. generalize (p ++ [d]) as l. intros l. induction l as [|y l IH]; intros H HQ ND; [destruct H|].
      inversion ND as [|? ? A B]; subst. destruct H as [-> |H]; [apply A; rewrite in_app_iff; right; exact HQ|apply IH; assumption]. }
    assert (NQ : NoDup q).
    { clear -ND. induction p as [|y p IH]; cbn in ND; inversion ND; subst; [assumption|apply IH; assumption]. }
    rewrite <- (remove_first_nodup x q NQ).
    replace (p ++ d :: q) with ((p ++ [d]) ++ q) by (rewrite <- app_assoc; reflexivity).
    assert (E : forall l, ~ In x l -> remove_first x (l ++ q) = l ++ remove_first x q).
    { induction l as [|y l IH]; intros H; cbn; [reflexivity|]. destruct (Pos.eq_dec y x) as [->|N].
      - exfalso. apply H. left. reflexivity.
      - rewrite IH; [reflexivity|]. intros Hn. apply H. right. exact Hn. }
    rewrite (E _ NP). replace (S (length p)) with (length (p ++ [d])) by (rewrite app_length; cbn; lia).
    rewrite skipn_app, skipn_all, Nat.sub_diag. reflexivity.
  - assert (HP : In x (p ++ [d])).
    { rewrite in_app_iff in *. destruct HI as [H|[H|H]]; [left; exact H|right; left; exact H|contradiction]. }
    assert (E : forall l, In x l -> remove_first x (l ++ q) = remove_first x l ++ q).
    { induction l as [|y l IH]; intros H; [destruct H|]. cbn. destruct (Pos.eq_dec y x) as [->|N]; [reflexivity|].
      destruct H as [H|H]; [congruence|]. rewrite IH by exact H. reflexivity. }
    replace (p ++ d :: q) with ((p ++ [d]) ++ q) by (rewrite <- app_assoc; reflexivity).
    rewrite (E _ HP). assert (L : length (remove_first x (p ++ [d])) = length p).
    { rewrite remove_first_in by exact HP. rewrite app_length. cbn. lia. }
    rewrite skipn_app, L, skipn_all2 by lia. replace (S (length p) - length p)%nat with 1%nat by lia.
    destruct q; reflexivity.
Qed.

Section Destroyed.
  Variable hash : string -> Z.
  Variable enc : mty -> Z -> list Z.
  Variable desc : addr -> mdesc.
  Variable Sources : nat.
  Variable hook : list mev -> Z -> list Z -> mbody.
  Variables d x : addr.
  Notation minv := (minv desc Sources).
  Notation reaction := (reaction desc hash).
  Notation mrun := (mrun hash enc desc Sources (destroyer d x) hook).

  Lemma run_destroy f w : minv w -> (m_cnt w < Sources)%nat ->
    exists w', mrun (S f) w (Destroy x) = MOk w' /\ minv w' /\
      m_log w' = m_log w ++ [Begin (Destroy x); End (Destroy x)] /\
      registered (m_log w') = remove_first x (registered (m_log w)).
  Proof.
    intros I L.
    assert (I0 : minv (memit w (Begin (Destroy x)))) by (apply memit_plain; [exact I|exact Logic.I]).
    assert (L0 : (m_cnt (memit w (Begin (Destroy x))) < Sources)%nat) by exact L.
    destruct (minv_destroy desc Sources _ x I0 (or_introl L0)) as (tab & cnt & Ht & I1).
    cbn [MediatorModel.mrun]. rewrite Ht. cbn [lift mbind]. eexists. split; [reflexivity|].
    split; [exact I1|]. cbn [memit m_log]. rewrite <- app_assoc. split; [reflexivity|].
    replace (m_log w ++ [Begin (Destroy x)] ++ [End (Destroy x)]) with ((m_log w ++ [Begin (Destroy x)]) ++ [End (Destroy x)])
      by (rewrite <- app_assoc; reflexivity).
    rewrite !registered_snoc. reflexivity.
  Qed.

  Lemma remove_first_sub (l : list addr) y : In y (remove_first x l) -> In y l.
  Proof.
    induction l as [|z l IH]; cbn; [tauto|]. destruct (Pos.eq_dec z x); [tauto|]. cbn. tauto.
  Qed.
  Lemma remove_first_gone (l : list addr) : NoDup l -> ~ In x (remove_first x l).
  Proof. intros ND. rewrite remove_first_nodup by exact ND. apply remove_In. Qed.
  Lemma remove_first_other (l : list addr) y : y <> x -> In y l -> In y (remove_first x l).
  Proof.
    intros N. induction l as [|z l IH]; cbn; [tauto|]. intros [-> |H].
    - destruct (Pos.eq_dec y x); [contradiction|left; reflexivity].
    - destruct (Pos.eq_dec z x); [exact H|right; apply IH, H].
  Qed.

  Lemma still_reached_sub q y : In y (still_reached x q) -> In y q.
  Proof.
    unfold still_reached. destruct (in_dec _ _ _); intros H; [apply in_remove in H; tauto|].
    destruct q; [destruct H|right; exact H].
  Qed.
  Lemma still_reached_length q : (length (still_reached x q) <= length q)%nat.
  Proof.
    unfold still_reached. destruct (in_dec _ _ _).
    - clear. induction q as [|y q IH]; cbn; [lia|]. destruct (Pos.eq_dec x y); cbn; lia.
    - destruct q; cbn; lia.
  Qed.

  (** The loop of one send, from the start. *)
  Lemma destroyer_loop f snd id bs p q w D :
    minv w -> there snd (m_log w) -> registered (m_log w) = p ++ d :: q -> NoDup (p ++ d :: q) ->
    (length (p ++ d :: q) < Sources)%nat -> In x (p ++ d :: q) ->
    reaction id bs d = [Recv d D bs] ->
    exists w1, minv w1 /\
      m_log w1 = m_log w ++ flat_map (reaction id bs) p ++ [Recv d D bs; Begin (Destroy x); End (Destroy x)] /\
      registered (m_log w1) = remove_first x (p ++ d :: q) /\
      (snd <> Some x \/ still_reached x q = [] ->
       mloop hash desc (destroyer d x) (mrun (S f)) snd id bs (S Sources) 0 w
       = MOk (memits w1 (flat_map (reaction id bs) (still_reached x q)))) /\
      (snd = Some x -> still_reached x q <> [] ->
       mloop hash desc (destroyer d x) (mrun (S f)) snd id bs (S Sources) 0 w = MUB (m_log w1)).
  Proof.
    intros I TH RG ND LT HX RD.
    assert (DN : ~ In d p /\ ~ In d q).
    { pose proof (NoDup_remove_2 _ _ _ ND) as H. rewrite in_app_iff in H. tauto. }
    assert (SIL : forall l, ~ In d l -> forall log a D b, In a l -> destroyer d x log a D b = MReturn).
    { intros l Hd log a D0 b Ha. unfold destroyer. destruct (Pos.eqb_spec a d) as [->|]; [contradiction|reflexivity]. }
    destruct (reactions_inv hash desc Sources id bs p w I) as [I1 R1].
    set (w1 := memits w (flat_map (reaction id bs) p)) in *.
    assert (I2 : minv (memit w1 (Recv d D bs))).
    { pose proof (reaction_inv hash desc Sources id bs d w1 I1) as [H _]. rewrite RD in H. exact H. }
    assert (L2 : (m_cnt (memit w1 (Recv d D bs)) < Sources)%nat).
    { cbn. rewrite (mi_cnt _ _ _ I), RG. exact LT. }
    destruct (run_destroy f _ I2 L2) as (w3 & E3 & I3 & G3 & R3).
    assert (R3' : registered (m_log w3) = remove_first x (p ++ d :: q)).
    { rewrite R3. cbn [memit m_log]. rewrite registered_snoc. cbn [reg_step]. rewrite R1, RG. reflexivity. }
    assert (SK3 : skipn (S (length p)) (registered (m_log w3)) = still_reached x q).
    { rewrite R3'. apply skipn_removed; assumption. }
    assert (PRE : mloop hash desc (destroyer d x) (mrun (S f)) snd id bs (S Sources) 0 w =
                  mloop hash desc (destroyer d x) (mrun (S f)) snd id bs (Sources - length p) (S (length p)) w3).
    { replace (S Sources) with (length p + S (Sources - length p))%nat by (rewrite app_length in LT; cbn in LT; lia).
      rewrite (mloop_seg hash desc Sources (destroyer d x) (mrun (S f)) snd id bs _ (d :: q) p 0 w I TH);
        [|rewrite RG; reflexivity|apply SIL; tauto].
      fold w1. cbn [plus].
      rewrite (mloop_step hash desc Sources (destroyer d x) (mrun (S f)) snd id bs _ _ w1 d q I1);
        [|exact (there_reg _ _ _ R1 TH)|rewrite R1, RG, skipn_app, skipn_all, Nat.sub_diag; reflexivity].
      assert (RE : react hash desc (destroyer d x) (mrun (S f)) id bs d w1 = MOk w3).
      { unfold react. unfold MediatorProofs.reaction in RD. destruct (id_of hash desc d =? id); [discriminate|].
        destruct (find _ _) as [D0|]; [|discriminate]. destruct (ty_size D0 =? length bs)%nat; [|discriminate].
        inversion RD; subst D0. unfold destroyer. rewrite Pos.eqb_refl. cbn [mbody_run]. fold (destroyer d x).
        change (fun (log : list mev) (a : addr) (_ : mty) (_ : list Z) => if (a =? d)%positive then MDo (Destroy x) (fun _ => MReturn) else MReturn)
          with (destroyer d x). rewrite E3. reflexivity. }
      rewrite RE. reflexivity. }
    exists w3. split; [exact I3|]. split.
    { rewrite G3. cbn [memit m_log w1 memits]. rewrite <- !app_assoc. reflexivity. }
    split; [exact R3'|]. rewrite PRE. split.
    - intros HC. destruct (still_reached x q) as [|y l] eqn:SR.
      + cbn [flat_map]. rewrite memits_nil.
        replace (Sources - length p)%nat with (S (Sources - length p - 1)) by (rewrite app_length in LT; cbn in LT; lia).
        apply (mloop_end hash desc Sources); assumption.
      + rewrite <- SR in *.
        assert (HC' : snd <> Some x) by (destruct HC as [HC|HC]; [exact HC|congruence]).
        assert (TH3 : there snd (m_log w3)).
        { destruct snd as [s|]; [|exact Logic.I]. cbn in *. rewrite R3'. apply remove_first_other; [congruence|].
          rewrite RG in TH. exact TH. }
        pose proof (still_reached_length q) as LSR. rewrite app_length in LT. cbn in LT.
        replace (Sources - length p)%nat with (length (still_reached x q) + S (Sources - length p - length (still_reached x q) - 1))%nat by lia.
        rewrite (mloop_seg hash desc Sources (destroyer d x) (mrun (S f)) snd id bs _ [] _ _ w3 I3 TH3);
          [|rewrite app_nil_r; exact SK3|apply SIL; intros H; apply still_reached_sub in H; tauto].
        destruct (reactions_inv hash desc Sources id bs (still_reached x q) w3 I3) as [I4 R4].
        apply (mloop_end hash desc Sources); [exact I4|]. rewrite R4.
        assert (SKA : forall n m (l : list addr), skipn (n + m) l = skipn m (skipn n l)).
        { clear. induction n as [|n IH]; intros m [|y l]; cbn; try reflexivity; [destruct m; reflexivity|apply IH]. }
        rewrite SKA, SK3, skipn_all. reflexivity.
    - intros -> NE. destruct (still_reached x q) as [|y l] eqn:SR; [congruence|].
      replace (Sources - length p)%nat with (S (Sources - length p - 1)) by (rewrite app_length in LT; cbn in LT; lia).
      apply (mloop_gone hash desc Sources (destroyer d x) (mrun (S f)) x id bs _ _ w3 y l I3); [|exact SK3].
      rewrite R3'. apply remove_first_gone, ND.
  Qed.
End Destroyed.

(** ** one send, as the properties state it *)
Section Send.
  Variable hash : string -> Z.
  Variable enc : mty -> Z -> list Z.
  Variable desc : addr -> mdesc.
  Variable Sources : nat.
  Variable handler : list mev -> addr -> mty -> list Z -> mbody.
  Variable hook : list mev -> Z -> list Z -> mbody.
  Notation mrun := (mrun hash enc desc Sources handler hook).
  Notation mreaches := (mreaches hash enc desc Sources handler hook).

  Lemma payload_sent c D v : sent desc c = Some (D, v) -> payload desc hash enc c (hash (ty_name D)) (enc D v).
  Proof. destruct c; cbn; intros H; inversion H; subst; split; reflexivity. Qed.

  Lemma send_ok P f w c D v w' : (forall a, ~ P (Destroy a)) ->
    (forall log a D bs, calls_only P (handler log a D bs)) -> (forall log id bs, calls_only P (hook log id bs)) ->
    mreaches w -> sent desc c = Some (D, v) -> mrun f w c = MOk w' ->
    exists inner new, m_log w' = m_log w ++ Begin c :: inner ++ [End c] /\
      direct 0 inner = told hash enc desc c ++ flat_map (reaction desc hash (hash (ty_name D)) (enc D v)) (registered (m_log w')) /\
      registered (m_log w') = registered (m_log w) ++ new /\
      (forall c', In (End c') inner -> P c').
  Proof.
    intros PND OS OH R HC E. pose proof (mreach_inv desc Sources hash enc handler hook w R) as I.
    destruct (msend_quiet desc Sources hash enc handler hook P PND OS OH f w c w' _ _ I (payload_sent c D v HC) (or_introl E))
      as (inner & e & A & [new B] & _ & C & [(_ & -> & F)|(F & _)]); [|congruence].
    exists inner, new. split; [exact A|]. split; [apply inside_direct, F|]. split; [exact B|exact C].
  Qed.

  Lemma send_exc P f w c D v w' : (forall a, ~ P (Destroy a)) ->
    (forall log a D bs, calls_only P (handler log a D bs)) -> (forall log id bs, calls_only P (hook log id bs)) ->
    mreaches w -> sent desc c = Some (D, v) -> mrun f w c = MExc w' ->
    exists inner new, m_log w' = m_log w ++ Begin c :: inner ++ [Threw c] /\
      registered (m_log w') = registered (m_log w) ++ new /\
      ((told hash enc desc c <> [] /\ direct 0 inner = told hash enc desc c) \/
       exists p a q, registered (m_log w') = p ++ a :: q /\ reaction desc hash (hash (ty_name D)) (enc D v) a <> [] /\
         direct 0 inner = told hash enc desc c ++ flat_map (reaction desc hash (hash (ty_name D)) (enc D v)) (p ++ [a])).
  Proof.
    intros PND OS OH R HC E. pose proof (mreach_inv desc Sources hash enc handler hook w R) as I.
    destruct (msend_quiet desc Sources hash enc handler hook P PND OS OH f w c w' _ _ I (payload_sent c D v HC) (or_intror E))
      as (inner & e & A & [new B] & _ & C & [(F & _)|(_ & -> & F)]); [congruence|].
    exists inner, new. split; [exact A|]. split; [exact B|].
    destruct F as [[F1 F2]|(p & a & q & F1 & F2 & F3)].
    - left. split; [exact F1|apply inside_direct, F2].
    - right. exists p, a, q. split; [exact F1|]. split; [exact F2|apply inside_direct, F3].
  Qed.

  Lemma quiet_registered inner c log e : sends c -> (e = End c \/ e = Threw c) ->
    (forall c', In (End c') inner -> sends c') -> registered (log ++ Begin c :: inner ++ [e]) = registered log.
  Proof.
    intros SC He H. apply no_construct. intros c' [X|X]; [discriminate|]. rewrite in_app_iff in X.
    destruct X as [X|[X|[]]]; [apply H, X|]. destruct He; subst e; inversion X; subst; exact SC.
  Qed.
End Send.

Section DestroyedSend.
  Variable hash : string -> Z.
  Variable enc : mty -> Z -> list Z.
  Variable desc : addr -> mdesc.
  Variable Sources : nat.
  Variable hook : list mev -> Z -> list Z -> mbody.
  Hypothesis HK : forall log id bs, hook log id bs = MReturn.
  Variables d x : addr.
  Notation minv := (minv desc Sources).
  Notation mrun := (mrun hash enc desc Sources (destroyer d x) hook).

  Lemma send_destroying f w c D v p q : minv w -> sent desc c = Some (D, v) ->
    there (sender c) (m_log w) -> registered (m_log w) = p ++ d :: q -> NoDup (p ++ d :: q) ->
    (length (p ++ d :: q) < Sources)%nat -> In x (p ++ d :: q) ->
    reaction desc hash (hash (ty_name D)) (enc D v) d = [Recv d D (enc D v)] ->
    let log1 := m_log w ++ Begin c :: told hash enc desc c ++
                flat_map (reaction desc hash (hash (ty_name D)) (enc D v)) p ++
                [Recv d D (enc D v); Begin (Destroy x); End (Destroy x)] in
    (sender c <> Some x \/ still_reached x q = [] ->
     exists w', mrun (S (S f)) w c = MOk w' /\
       m_log w' = log1 ++ flat_map (reaction desc hash (hash (ty_name D)) (enc D v)) (still_reached x q) ++ [End c] /\
       registered (m_log w') = remove Pos.eq_dec x (registered (m_log w))) /\
    (sender c = Some x -> still_reached x q <> [] -> mrun (S (S f)) w c = MUB log1).
  Proof.
    intros I HC TH RG ND LT HX RD log1.
    assert (I0 : minv (memit w (Begin c))) by (apply memit_plain; [exact I|exact Logic.I]).
    assert (R0 : registered (m_log (memit w (Begin c))) = registered (m_log w))
      by (cbn [memit m_log]; rewrite registered_snoc; reflexivity).
    (* after the hook *)
    set (w1 := memits (memit w (Begin c)) (told hash enc desc c)).
    assert (I1 : minv w1 /\ registered (m_log w1) = registered (m_log w)).
    { unfold w1. destruct c; cbn [told]; rewrite ?memits_nil; try (split; assumption).
      split; [apply (memit_plain desc Sources _ (Hook _ _)); [exact I0|exact Logic.I]|].
      cbn [memits m_log]. rewrite registered_snoc. exact R0. }
    destruct I1 as [I1 R1].
    assert (TH1 : there (sender c) (m_log w1)) by exact (there_reg _ _ _ R1 TH).
    rewrite <- R1 in RG.
    destruct (destroyer_loop hash enc desc Sources hook d x f (sender c) (hash (ty_name D)) (enc D v) p q w1 D
                I1 TH1 RG ND LT HX RD) as (w2 & I2 & G2 & R2 & HOK & HUB).
    assert (EQ : mrun (S (S f)) w c =
      match mloop hash desc (destroyer d x) (mrun (S f)) (sender c) (hash (ty_name D)) (enc D v) (S Sources) 0 w1 with
      | MOk w' => MOk (memit w' (End c)) | MExc w' => MExc (memit w' (Threw c)) | MUB l => MUB l | MFuel => MFuel end).
    { remember (S f) as sf. cbn [MediatorModel.mrun].
      destruct c as [a|a|a u|D0 u]; cbn [sent] in HC; try discriminate; inversion HC; subst v.
      - subst D. rewrite (there_read (Some a) (memit w (Begin (ModSend a u)))) by (exact (there_reg (Some a) _ _ R0 TH)).
        cbn [mbind]. rewrite HK. cbn [mbody_run mbind]. reflexivity.
      - subst D0. unfold w1. cbn [told]. rewrite memits_nil. reflexivity. }
    assert (LG : m_log w2 = log1).
    { rewrite G2. unfold log1, w1. cbn [memits memit m_log]. rewrite <- !app_assoc. reflexivity. }
    split.
    - intros H. rewrite EQ, (HOK H). eexists. split; [reflexivity|]. cbn [memit memits m_log].
      destruct (reactions_inv hash desc Sources (hash (ty_name D)) (enc D v) (still_reached x q) w2 I2) as [_ R3].
      cbn [memits m_log] in R3. rewrite registered_snoc, R3. split; [rewrite LG, <- !app_assoc; reflexivity|].
      assert (RS : forall l, reg_step l (End c) = l) by (intros l; destruct c; try discriminate; reflexivity).
      rewrite RS, R2, remove_first_nodup by exact ND. rewrite <- RG, R1. reflexivity.
    - intros H1 H2. rewrite EQ, (HUB H1 H2), LG. reflexivity.
  Qed.
End DestroyedSend.

(** ** exceptions come from handlers *)
Section NoThrow.
  Variable hash : string -> Z.
  Variable enc : mty -> Z -> list Z.
  Variable desc : addr -> mdesc.
  Variable Sources : nat.
  Variable handler : list mev -> addr -> mty -> list Z -> mbody.
  Variable hook : list mev -> Z -> list Z -> mbody.
  Hypothesis HT : forall log a D bs, never_throws (handler log a D bs).
  Hypothesis HK : forall log id bs, never_throws (hook log id bs).

  Lemma body_no_throw step b : never_throws b -> forall w w', mbody_run step b w <> MExc w'.
  Proof.
    induction 1 as [|c k _ IH]; intros w w'; cbn [mbody_run]; [discriminate|].
    destruct (step w c); try discriminate; apply IH.
  Qed.
  Lemma lift_no_throw {A} log (x : res A) w' : lift log x <> MExc w'.
  Proof. destruct x; discriminate. Qed.
  Lemma receiver_no_throw step a id bs recvs w w' : receiver_converter hash handler step a recvs id bs w <> MExc w'.
  Proof.
    induction recvs as [|D recvs IH]; cbn [receiver_converter]; [discriminate|].
    destruct (id =? hash (ty_name D)); [|exact IH]. unfold convert_field. destruct (negb _); [discriminate|].
    destruct (lift _ _) as [g|g|g|] eqn:E; cbn [mbind]; try discriminate; [apply body_no_throw, HT|].
    exfalso. exact (lift_no_throw _ _ _ E).
  Qed.
  Lemma loop_no_throw step snd id bs k : forall i w w', mloop hash desc handler step snd id bs k i w <> MExc w'.
  Proof.
    induction k as [|k IH]; intros i w w'; cbn [mloop]; [discriminate|].
    destruct (i <? m_cnt w)%nat; [|discriminate].
    destruct (lift _ _) as [[a|]|g|g|] eqn:E; cbn [mbind]; try discriminate;
      [|exfalso; exact (lift_no_throw _ _ _ E)].
    destruct (sender_read snd w) as [u|g|g|] eqn:ES; cbn [mbind]; try discriminate;
      [|exfalso; exact (sender_no_exc _ _ _ ES)].
    destruct (id_of hash desc a =? id); [apply IH|].
    destruct (receiver_converter _ _ _ _ _ _ _ _) as [w1|g|g|] eqn:ER; cbn [mbind]; try discriminate; [apply IH|].
    exfalso. exact (receiver_no_throw _ _ _ _ _ _ _ ER).
  Qed.
  Lemma no_throw f w c w' : mrun hash enc desc Sources handler hook f w c <> MExc w'.
  Proof.
    destruct f as [|f]; cbn [mrun]; [discriminate|].
    destruct c as [a|a|a v|D v].
    - destruct (lift _ _) as [[? ?]|g|g|] eqn:E; cbn [mbind]; try discriminate. exfalso. exact (lift_no_throw _ _ _ E).
    - destruct (lift _ _) as [[? ?]|g|g|] eqn:E; cbn [mbind]; try discriminate. exfalso. exact (lift_no_throw _ _ _ E).
    - destruct (sender_read _ _) as [u|g|g|] eqn:ES; cbn [mbind]; try discriminate;
        [|exfalso; exact (sender_no_exc _ _ _ ES)].
      destruct (mbody_run _ _ _) as [w1|g|g|] eqn:EB; cbn [mbind]; try discriminate;
        [|exfalso; exact (body_no_throw _ _ (HK _ _ _) _ _ EB)].
      destruct (mloop _ _ _ _ _ _ _ _ _ _) as [w2|g|g|] eqn:EL; try discriminate.
      exfalso. exact (loop_no_throw _ _ _ _ _ _ _ _ EL).
    - destruct (mloop _ _ _ _ _ _ _ _ _ _) as [w2|g|g|] eqn:EL; try discriminate.
      exfalso. exact (loop_no_throw _ _ _ _ _ _ _ _ EL).
  Qed.
End NoThrow.
