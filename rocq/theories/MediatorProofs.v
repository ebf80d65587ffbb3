(** Proofs about the mediator. *)
From Verif Require Export MediatorSpec.
From Verif Require Import ObserverProofs1.

Lemma registered_snoc log e : registered (log ++ [e]) = reg_step (registered log) e.
Proof. unfold registered. rewrite fold_left_app. reflexivity. Qed.

Lemma open_snoc log e : open_calls (log ++ [e]) = open_step (open_calls log) e.
Proof. unfold open_calls. rewrite fold_left_app. reflexivity. Qed.

(** ** the table *)
Lemma shift_spec l : forall p x r,
  exists y, shift_down (p ++ Some x :: map Some l ++ r) (length p) (length l)
  = Ok (p ++ map Some l ++ Some y :: r).
Proof.
  induction l as [|z l IH]; intros p x r; cbn [map length shift_down app].
  - exists x. reflexivity.
  - assert (A : slot (p ++ Some x :: Some z :: map Some l ++ r) (S (length p)) = Ok (Some z)).
    { replace (p ++ Some x :: Some z :: map Some l ++ r) with ((p ++ [Some x]) ++ Some z :: map Some l ++ r)
        by (rewrite <- app_assoc; reflexivity).
      replace (S (length p)) with (length (p ++ [Some x])) by (rewrite app_length; cbn; lia). apply slot_app. }
    rewrite A. cbn [bind]. rewrite put_app. cbn [bind].
    destruct (IH (p ++ [Some z]) z r) as [y Hy]. exists y.
    rewrite app_length in Hy. cbn [length] in Hy. replace (length p + 1)%nat with (S (length p)) in Hy by lia.
    rewrite <- app_assoc in Hy. cbn [app] in Hy. rewrite Hy, <- app_assoc. reflexivity.
Qed.

Lemma remove_first_notin a l : ~ In a l -> remove_first a l = l.
Proof.
  induction l as [|x l IH]; intros H; cbn [remove_first]; [reflexivity|].
  destruct (Pos.eq_dec x a) as [E|N]; [exfalso; apply H; left; exact E|].
  rewrite IH; [reflexivity|]. intros HI. apply H. right. exact HI.
Qed.
Lemma remove_first_split a l1 l2 : ~ In a l1 -> remove_first a (l1 ++ a :: l2) = l1 ++ l2.
Proof.
  induction l1 as [|x l1 IH]; intros H; cbn [remove_first app].
  - destruct (Pos.eq_dec a a); [reflexivity|congruence].
  - destruct (Pos.eq_dec x a) as [E|N]; [exfalso; apply H; left; exact E|].
    rewrite IH; [reflexivity|]. intros HI. apply H. right. exact HI.
Qed.
Lemma remove_first_in a l : In a l -> length (remove_first a l) = pred (length l).
Proof.
  induction l as [|x l IH]; intros H; [destruct H|]. cbn [remove_first].
  destruct (Pos.eq_dec x a) as [E|N]; [reflexivity|].
  destruct H as [H|H]; [congruence|]. cbn [length pred]. rewrite IH by exact H. destruct l; [destruct H|reflexivity].
Qed.
Lemma remove_first_nodup a l : NoDup l -> remove_first a l = remove Pos.eq_dec a l.
Proof.
  induction l as [|x l IH]; intros H; [reflexivity|]. inversion H; subst. cbn [remove_first remove].
  destruct (Pos.eq_dec x a) as [E|N], (Pos.eq_dec a x) as [E'|N']; try congruence.
  - subst. rewrite remove_notin by assumption. reflexivity.
  - rewrite IH by assumption. reflexivity.
Qed.

(** Looking for a module that is not there. *)
Lemma remove_from_absent a l : forall p r cnt, ~ In a l ->
  remove_from (p ++ map Some l ++ r) cnt (length p) (length l) a = Ok (p ++ map Some l ++ r, cnt).
Proof.
  induction l as [|x l IH]; intros p r cnt H; cbn [map length remove_from app]; [reflexivity|].
  rewrite slot_app. cbn [bind points_to].
  destruct (Pos.eqb_spec x a) as [E|N]; [exfalso; apply H; left; exact E|].
  specialize (IH (p ++ [Some x]) r cnt ltac:(intros HI; apply H; right; exact HI)).
  rewrite app_length, <- app_assoc in IH. cbn [length app] in IH.
  replace (length p + 1)%nat with (S (length p)) in IH by lia. exact IH.
Qed.

(** A module that is there. *)
Lemma remove_from_present a l2 l1 : forall p r cnt, ~ In a l1 -> cnt = (length p + length (l1 ++ a :: l2))%nat ->
  exists y,
  remove_from (p ++ map Some (l1 ++ a :: l2) ++ r) cnt (length p) (length (l1 ++ a :: l2)) a
  = (tab2 <- put_slot (p ++ map Some (l1 ++ l2) ++ Some y :: r) cnt None ;; Ok (tab2, (cnt - 1)%nat)).
Proof.
  induction l1 as [|x l1 IH]; intros p r cnt H HC; cbn [map length remove_from app]; rewrite slot_app; cbn [bind points_to].
  - rewrite Pos.eqb_refl. cbn [app length] in HC.
    destruct (shift_spec l2 p a r) as [y Hy]. exists y.
    replace (cnt - 1 - length p)%nat with (length l2) by lia. rewrite Hy. reflexivity.
  - destruct (Pos.eqb_spec x a) as [E|N]; [exfalso; apply H; left; exact E|].
    destruct (IH (p ++ [Some x]) r cnt) as [y Hy].
    + intros HI. apply H. right. exact HI.
    + rewrite HC. cbn [length app]. rewrite !app_length. cbn [length]. lia.
    + exists y. rewrite app_length, <- !app_assoc in Hy. cbn [length app] in Hy.
      replace (length p + 1)%nat with (S (length p)) in Hy by lia. exact Hy.
Qed.

Lemma put_out tab i v : (length tab <= i)%nat -> put_slot tab i v = UB.
Proof. intros H. unfold put_slot. rewrite (proj2 (nth_error_None tab i)) by exact H. reflexivity. Qed.

Lemma set_nth_length tab : forall i v, length (set_nth tab i v) = length tab.
Proof. induction tab as [|x tab IH]; intros [|i] v; cbn; [reflexivity..|]. rewrite IH. reflexivity. Qed.

Lemma put_in tab i v : (i < length tab)%nat -> exists tab', put_slot tab i v = Ok tab' /\ length tab' = length tab.
Proof.
  intros H. unfold put_slot. destruct (nth_error tab i) eqn:E.
  - exists (set_nth tab i v). split; [reflexivity|]. apply set_nth_length.
  - apply nth_error_None in E. lia.
Qed.

Lemma read_bytes_all p : read_bytes (length p) p = Ok p.
Proof. induction p as [|b p IH]; cbn; [reflexivity|]. rewrite IH. reflexivity. Qed.

(** The sender exists. *)
Definition there (snd : option addr) (log : list mev) : Prop :=
  match snd with None => True | Some s => In s (registered log) end.
Lemma there_read snd w : there snd (m_log w) -> sender_read snd w = MOk tt.
Proof.
  destruct snd as [s|]; cbn; [|reflexivity]. intros H.
  destruct (in_dec Pos.eq_dec s (registered (m_log w))); [reflexivity|contradiction].
Qed.
Lemma there_reg snd l1 l2 : registered l2 = registered l1 -> there snd l1 -> there snd l2.
Proof. destruct snd; cbn; [|tauto]. intros ->. tauto. Qed.

Lemma sender_no_exc snd w we : sender_read snd w <> MExc we.
Proof. destruct snd as [s|]; unfold sender_read; [destruct (in_dec _ _ _)|]; discriminate. Qed.
Lemma skipn_nth (l : list addr) : forall i a, nth_error l i = Some a -> skipn i l = a :: skipn (S i) l.
Proof.
  induction l as [|x l IH]; intros [|i] a H; cbn in *; try discriminate; [inversion H; reflexivity|apply IH, H].
Qed.

(** Invisible: a finished call, at any depth. *)
Definition closed_seg (s : list mev) : Prop := forall d r, direct d (s ++ r) = direct d r.
Lemma closed_nil : closed_seg [].
Proof. intros d r. reflexivity. Qed.
Lemma closed_app s1 s2 : closed_seg s1 -> closed_seg s2 -> closed_seg (s1 ++ s2).
Proof. intros H1 H2 d r. rewrite <- app_assoc, H1, H2. reflexivity. Qed.

(** The inside of a call: invisible from further out, [got] directly seen. *)
Definition inside (s got : list mev) : Prop :=
  (forall d r, direct (S d) (s ++ r) = direct (S d) r) /\ (forall r, direct 0 (s ++ r) = got ++ direct 0 r).
Lemma inside_nil : inside [] [].
Proof. split; reflexivity. Qed.
Lemma inside_app s1 g1 s2 g2 : inside s1 g1 -> inside s2 g2 -> inside (s1 ++ s2) (g1 ++ g2).
Proof.
  intros [A1 B1] [A2 B2]. split.
  - intros d r. rewrite <- app_assoc, A1, A2. reflexivity.
  - intros r. rewrite <- !app_assoc, B1, B2. reflexivity.
Qed.
Lemma inside_recv a D bs s : closed_seg s -> inside (Recv a D bs :: s) [Recv a D bs].
Proof.
  intros H. split.
  - intros d r. cbn [app direct Nat.eqb]. apply H.
  - intros r. cbn [app direct Nat.eqb]. rewrite H. reflexivity.
Qed.
Lemma inside_hook id bs s : closed_seg s -> inside (Hook id bs :: s) [Hook id bs].
Proof.
  intros H. split.
  - intros d r. cbn [app direct Nat.eqb]. apply H.
  - intros r. cbn [app direct Nat.eqb]. rewrite H. reflexivity.
Qed.
Lemma inside_closed c e s got : (e = End c \/ e = Threw c) -> inside s got -> closed_seg (Begin c :: s ++ [e]).
Proof.
  intros He [A B] d r. cbn [app direct]. rewrite <- app_assoc, A. destruct He as [-> | ->]; reflexivity.
Qed.
Lemma inside_direct s got : inside s got -> direct 0 s = got.
Proof. intros [_ B]. rewrite <- (app_nil_r s), B, app_nil_r. reflexivity. Qed.


(** ** invariant for arbitrary handlers *)
Section Inv.
  Variable desc : addr -> mdesc.
  Variable Sources : nat.

  Record minv (w : mworld) : Prop := {
    mi_len : length (m_tab w) = Sources;
    mi_repr : exists r, m_tab w = map Some (registered (m_log w)) ++ r;
    mi_cnt : m_cnt w = length (registered (m_log w));
    mi_recv : forall a D bs, In (Recv a D bs) (m_log w) ->
                length bs = ty_size D /\ In D (md_recvs (desc a))
  }.

  Lemma minv_le w : minv w -> (m_cnt w <= Sources)%nat.
  Proof.
    intros I. destruct (mi_repr w I) as [r H]. rewrite (mi_cnt w I), <- (mi_len w I), H, app_length, map_length. lia.
  Qed.

  Lemma minv_fresh : minv (mfresh Sources).
  Proof.
    split; cbn [mfresh m_tab m_cnt m_log]; [apply repeat_length|exists (repeat None Sources); reflexivity|reflexivity|].
    intros a D bs [].
  Qed.

  Lemma minv_slot w i : minv w -> (i < m_cnt w)%nat ->
    exists a, slot (m_tab w) i = Ok (Some a) /\ nth_error (registered (m_log w)) i = Some a.
  Proof.
    intros I L. destruct (mi_repr w I) as [r H]. rewrite (mi_cnt w I) in L.
    destruct (nth_error (registered (m_log w)) i) as [a|] eqn:E.
    - exists a. split; [|reflexivity]. unfold slot. rewrite H, nth_error_app1 by (rewrite map_length; exact L).
      rewrite nth_error_map, E. reflexivity.
    - apply nth_error_None in E. lia.
  Qed.

  Definition plain (e : mev) : Prop :=
    match e with
    | End (Construct _) | End (Destroy _) => False
    | Recv a D bs => length bs = ty_size D /\ In D (md_recvs (desc a))
    | _ => True
    end.
  Lemma memit_plain w e : minv w -> plain e -> minv (memit w e).
  Proof.
    intros [H1 H2 H3 H4] P. assert (ER : registered (m_log w ++ [e]) = registered (m_log w)).
    { rewrite registered_snoc. destruct e as [c|id b|a D bs|[]|c]; cbn in *; try reflexivity; tauto. }
    split; cbn [memit m_tab m_cnt m_log]; rewrite ?ER; try assumption.
    intros a D bs Hin. rewrite in_app_iff in Hin. destruct Hin as [Hin|[->|[]]]; [apply H4, Hin|exact P].
  Qed.

  (** The table after a registration or removal, and after the final [End]. *)
  Lemma minv_construct w a : minv w -> (m_cnt w < Sources)%nat ->
    exists tab, add_module (m_tab w) (m_cnt w) a = Ok (tab, S (m_cnt w)) /\
      minv (MW tab (S (m_cnt w)) (m_log w ++ [End (Construct a)])).
  Proof.
    intros [H1 [r H2] H3 H4] L. set (l := registered (m_log w)) in *.
    unfold add_module. rewrite H2, H3.
    destruct r as [|y r].
    { exfalso. rewrite H2, app_nil_r, map_length in H1. lia. }
    assert (HP : put_slot (map Some l ++ y :: r) (length l) (Some a) = Ok (map Some l ++ Some a :: r)).
    { rewrite <- (map_length (@Some positive) l). apply put_app. }
    rewrite HP. cbn [bind]. eexists. split; [reflexivity|].
    assert (ER : registered (m_log w ++ [End (Construct a)]) = l ++ [a]) by (rewrite registered_snoc; reflexivity).
    split; cbn [m_tab m_cnt m_log]; rewrite ?ER.
    - rewrite <- H1, H2, !app_length. reflexivity.
    - exists r. rewrite map_app, <- app_assoc. reflexivity.
    - rewrite app_length. cbn. lia.
    - intros x D bs Hin. rewrite in_app_iff in Hin. destruct Hin as [Hin|[Hin|[]]]; [apply H4, Hin|discriminate].
  Qed.

  Lemma construct_full w a : minv w -> m_cnt w = Sources -> add_module (m_tab w) (m_cnt w) a = UB.
  Proof. intros [H1 _ _ _] L. unfold add_module. rewrite put_out by lia. reflexivity. Qed.

  Lemma minv_destroy w a : minv w -> (m_cnt w < Sources)%nat \/ ~ In a (registered (m_log w)) ->
    exists tab cnt, remove_from (m_tab w) (m_cnt w) 0 (m_cnt w) a = Ok (tab, cnt) /\
      minv (MW tab cnt (m_log w ++ [End (Destroy a)])).
  Proof.
    intros [H1 [r H2] H3 H4] L. set (l := registered (m_log w)) in *.
    assert (ER : registered (m_log w ++ [End (Destroy a)]) = remove_first a l) by (rewrite registered_snoc; reflexivity).
    assert (HRV : forall x D bs, In (Recv x D bs) (m_log w ++ [End (Destroy a)]) ->
                    length bs = ty_size D /\ In D (md_recvs (desc x))).
    { intros x D bs Hin. rewrite in_app_iff in Hin. destruct Hin as [Hin|[Hin|[]]]; [apply H4, Hin|discriminate]. }
    rewrite H2, H3. destruct (in_dec Pos.eq_dec a l) as [HI|HN].
    - assert (HS : exists l1 l2, l = l1 ++ a :: l2 /\ ~ In a l1).
      { clear -HI. induction l as [|x l IH]; [destruct HI|]. destruct (Pos.eq_dec x a) as [E|N].
        - exists [], l. subst. split; [reflexivity|tauto].
        - destruct HI as [HI|HI]; [congruence|]. destruct (IH HI) as (l1 & l2 & -> & HN).
          exists (x :: l1), l2. split; [reflexivity|]. intros [H|H]; [congruence|contradiction]. }
      destruct HS as (l1 & l2 & EL & HN).
      destruct (remove_from_present a l2 l1 [] r (length l) HN) as [y Hy]; [rewrite EL; reflexivity|].
      cbn [app length] in Hy. rewrite <- EL in Hy. rewrite Hy.
      assert (LT : (length l < Sources)%nat) by (rewrite <- H3; destruct L; [assumption|contradiction]).
      assert (LL : length (map Some (l1 ++ l2) ++ Some y :: r) = Sources).
      { rewrite <- H1, H2, EL, !app_length, !map_length, !app_length. cbn. lia. }
      destruct r as [|z r].
      { exfalso. rewrite H2, app_nil_r, map_length in H1. lia. }
      assert (HP : put_slot (map Some (l1 ++ l2) ++ Some y :: z :: r) (length l) None
                   = Ok (map Some (l1 ++ l2) ++ Some y :: None :: r)).
      { replace (length l) with (length (map Some (l1 ++ l2) ++ [Some y])).
        - replace (map Some (l1 ++ l2) ++ Some y :: z :: r) with ((map Some (l1 ++ l2) ++ [Some y]) ++ z :: r)
            by (rewrite <- app_assoc; reflexivity).
          rewrite put_app, <- app_assoc. reflexivity.
        - rewrite app_length, map_length, EL, !app_length. cbn. lia. }
      rewrite HP. cbn [bind]. eexists. eexists. split; [reflexivity|].
      split; cbn [m_tab m_cnt m_log]; rewrite ?ER; [| | |exact HRV].
      + rewrite <- LL, !app_length. reflexivity.
      + rewrite EL, remove_first_split by exact HN. eexists. reflexivity.
      + rewrite remove_first_in by exact HI. lia.
    - pose proof (remove_from_absent a l [] r (length l) HN) as E. cbn [app length] in E. rewrite E.
      eexists. eexists. split; [reflexivity|].
      split; cbn [m_tab m_cnt m_log]; rewrite ?ER, ?(remove_first_notin a l HN); [| | |exact HRV].
      + rewrite <- H1, H2. reflexivity.
      + exists r. reflexivity.
      + reflexivity.
  Qed.

  Lemma destroy_full w a : minv w -> m_cnt w = Sources -> In a (registered (m_log w)) ->
    remove_from (m_tab w) (m_cnt w) 0 (m_cnt w) a = UB.
  Proof.
    intros [H1 [r H2] H3 H4] L HI. set (l := registered (m_log w)) in *.
    assert (HS : exists l1 l2, l = l1 ++ a :: l2 /\ ~ In a l1).
    { clear -HI. induction l as [|x l IH]; [destruct HI|]. destruct (Pos.eq_dec x a) as [E|N].
      - exists [], l. subst. split; [reflexivity|tauto].
      - destruct HI as [HI|HI]; [congruence|]. destruct (IH HI) as (l1 & l2 & -> & HN).
        exists (x :: l1), l2. split; [reflexivity|]. intros [H|H]; [congruence|contradiction]. }
    destruct HS as (l1 & l2 & EL & HN).
    destruct (remove_from_present a l2 l1 [] r (length l) HN) as [y Hy]; [rewrite EL; reflexivity|].
    cbn [app length] in Hy. rewrite <- EL in Hy. rewrite H2, H3, Hy.
    rewrite put_out; [reflexivity|].
    rewrite !app_length, map_length, app_length. cbn.
    assert (length l = length (l1 ++ a :: l2)) by (rewrite EL; reflexivity).
    rewrite app_length in H. cbn in H.
    assert (length r = 0)%nat. { rewrite H2, app_length, map_length in H1. lia. } lia.
  Qed.

  Variable hash : string -> Z.
  Variable enc : mty -> Z -> list Z.
  Variable handler : list mev -> addr -> mty -> list Z -> mbody.
  Variable hook : list mev -> Z -> list Z -> mbody.
  Notation mrun := (mrun hash enc desc Sources handler hook).

  (** What undefined behaviour means. *)
  Definition bad (log : list mev) : Prop :=
    length (registered log) = Sources \/
    exists s v rest, open_calls log = ModSend s v :: rest /\ ~ In s (registered log).
  Definition msafe (w : mworld) (x : mres mworld) : Prop :=
    match x with
    | MOk w' | MExc w' => (minv w' /\ open_calls (m_log w') = open_calls (m_log w)) /\ exists evs, m_log w' = m_log w ++ evs
    | MUB log => bad log /\ exists evs, log = m_log w ++ evs
    | MFuel => True
    end.
  Lemma msafe_refl w : minv w -> msafe w (MOk w).
  Proof. intros I. split; [split; [exact I|reflexivity]|]. exists []. rewrite app_nil_r. reflexivity. Qed.
  Lemma msafe_pre w w1 x : open_calls (m_log w1) = open_calls (m_log w) ->
    (exists evs, m_log w1 = m_log w ++ evs) -> msafe w1 x -> msafe w x.
  Proof.
    intros EO [e1 H] HS.
    destruct x as [w'|w'|log|]; cbn in *; [| | |exact HS]; destruct HS as [HS [e2 H2]];
      (split; [rewrite <- ?EO; exact HS|]); exists (e1 ++ e2); rewrite H2, H, app_assoc; reflexivity.
  Qed.
  Lemma msafe_bind w x g : msafe w x ->
    (forall w1, minv w1 -> open_calls (m_log w1) = open_calls (m_log w) -> msafe w1 (g w1)) -> msafe w (mbind x g).
  Proof.
    intros HS HG. destruct x as [w1|w1|log|]; cbn [mbind]; [|exact HS|exact HS|exact HS].
    destruct HS as [[I EO] HL]. eapply msafe_pre; [exact EO|exact HL|]. apply HG; assumption.
  Qed.

  (** The sender whose id_ a loop reads is that of the innermost call. *)
  Definition sends_now (snd : option addr) (log : list mev) : Prop :=
    match snd with None => True | Some s => exists v rest, open_calls log = ModSend s v :: rest end.
  Lemma sender_safe snd w : minv w -> sends_now snd (m_log w) ->
    sender_read snd w = MOk tt \/ (sender_read snd w = MUB (m_log w) /\ bad (m_log w)).
  Proof.
    intros I H. destruct snd as [s|]; cbn [sender_read sends_now] in *; [|left; reflexivity].
    destruct (in_dec Pos.eq_dec s (registered (m_log w))) as [HI|HN]; [left; reflexivity|].
    right. split; [reflexivity|]. right. destruct H as (v & rest & E). exists s, v, rest. tauto.
  Qed.
  Lemma msafe_bad w : bad (m_log w) -> msafe w (MUB (m_log w)).
  Proof. intros H. split; [exact H|]. exists []. rewrite app_nil_r. reflexivity. Qed.

  Section Step.
    Variable step : mworld -> mcall -> mres mworld.
    Hypothesis step_safe : forall w c, minv w -> msafe w (step w c).

    Lemma mbody_safe b : forall w, minv w -> msafe w (mbody_run step b w).
    Proof.
      induction b as [| |c k IH]; intros w I; cbn [mbody_run]; [apply msafe_refl, I|exact (msafe_refl w I)|].
      pose proof (step_safe w c I) as HS.
      destruct (step w c) as [w1|w1|log|]; [| |exact HS|exact HS];
        destruct HS as [[I1 EO] HL]; (eapply msafe_pre; [exact EO|exact HL|]; apply IH, I1).
    Qed.

    Lemma convert_safe a D bs w : minv w -> In D (md_recvs (desc a)) ->
      msafe w (convert_field handler step a D bs w).
    Proof.
      intros I HD. unfold convert_field. destruct (Nat.eqb_spec (ty_size D) (length bs)) as [E|N]; cbn [negb].
      - rewrite E, read_bytes_all. cbn [lift mbind].
        eapply msafe_pre; [| |apply mbody_safe, memit_plain; [exact I|]].
        + cbn [memit m_log]. rewrite open_snoc. reflexivity.
        + exists [Recv a D bs]. reflexivity.
        + cbn. split; [symmetry; exact E|exact HD].
      - apply msafe_refl, I.
    Qed.

    Lemma receiver_safe a id bs recvs : forall w, minv w -> incl recvs (md_recvs (desc a)) ->
      msafe w (receiver_converter hash handler step a recvs id bs w).
    Proof.
      induction recvs as [|D recvs IH]; intros w I HI; cbn [receiver_converter]; [apply msafe_refl, I|].
      destruct (id =? hash (ty_name D)).
      - apply convert_safe; [exact I|]. apply HI. left. reflexivity.
      - apply IH; [exact I|]. intros x Hx. apply HI. right. exact Hx.
    Qed.

    Lemma sends_now_open snd l1 l2 : open_calls l2 = open_calls l1 -> sends_now snd l1 -> sends_now snd l2.
    Proof. destruct snd as [s|]; cbn; [|tauto]. intros ->. tauto. Qed.

    Lemma mloop_safe snd id bs k : forall i w, minv w -> sends_now snd (m_log w) ->
      msafe w (mloop hash desc handler step snd id bs k i w).
    Proof.
      induction k as [|k IH]; intros i w I SN; cbn [mloop]; [exact Logic.I|].
      destruct (Nat.ltb_spec i (m_cnt w)) as [L|L]; [|apply msafe_refl, I].
      destruct (minv_slot w i I L) as (a & Ha & _). rewrite Ha. cbn [lift mbind].
      destruct (sender_safe snd w I SN) as [->|[-> HB]]; cbn [mbind]; [|apply msafe_bad, HB].
      destruct (id_of hash desc a =? id); [apply IH; assumption|].
      apply msafe_bind; [apply receiver_safe; [exact I|apply incl_refl]|].
      intros w1 I1 EO. apply IH; [exact I1|]. eapply sends_now_open; eassumption.
    Qed.
  End Step.

  Lemma finish_safe w c x : minv w -> match c with Construct _ | Destroy _ => False | _ => True end ->
    msafe (memit w (Begin c)) x ->
    msafe w (match x with
             | MOk w1 => MOk (memit w1 (End c)) | MExc w1 => MExc (memit w1 (Threw c))
             | MUB l => MUB l | MFuel => MFuel end).
  Proof.
    intros I HC HS.
    destruct x as [w1|w1|log|]; [| | |exact HS].
    - destruct HS as [[I1 EO] [evs HL]]. split; [split|].
      + apply memit_plain; [exact I1|]. destruct c; try destruct HC; exact Logic.I.
      + cbn [memit m_log]. rewrite open_snoc, EO. cbn [memit m_log]. rewrite open_snoc. reflexivity.
      + exists (Begin c :: evs ++ [End c]). cbn [memit m_log] in *. rewrite HL, <- !app_assoc. reflexivity.
    - destruct HS as [[I1 EO] [evs HL]]. split; [split|].
      + apply memit_plain; [exact I1|exact Logic.I].
      + cbn [memit m_log]. rewrite open_snoc, EO. cbn [memit m_log]. rewrite open_snoc. reflexivity.
      + exists (Begin c :: evs ++ [Threw c]). cbn [memit m_log] in *. rewrite HL, <- !app_assoc. reflexivity.
    - destruct HS as [HB [evs HL]]. split; [exact HB|]. exists (Begin c :: evs). rewrite HL. cbn [memit m_log].
      rewrite <- app_assoc. reflexivity.
  Qed.

  Lemma mrun_safe f : forall w c, minv w -> msafe w (mrun f w c).
  Proof.
    induction f as [|f IH]; intros w c I; [exact Logic.I|].
    cbn [MediatorModel.mrun].
    assert (I0 : minv (memit w (Begin c))) by (apply memit_plain; [exact I|exact Logic.I]).
    assert (O0 : open_calls (m_log (memit w (Begin c))) = c :: open_calls (m_log w)).
    { cbn [memit m_log]. rewrite open_snoc. reflexivity. }
    assert (P0 : exists evs, m_log (memit w (Begin c)) = m_log w ++ evs) by (exists [Begin c]; reflexivity).
    pose proof (minv_le _ I0) as LE.
    destruct c as [a|a|a v|D v].
    - set (w0 := memit w (Begin (Construct a))) in *.
      destruct (Nat.eq_dec (m_cnt w0) Sources) as [E|N].
      + rewrite (construct_full w0 a I0 E). cbn [lift mbind]. split; [left; rewrite <- (mi_cnt w0 I0); exact E|exact P0].
      + destruct (minv_construct w0 a I0 ltac:(lia)) as (tab & Ht & I1). rewrite Ht. cbn [lift mbind].
        split; [split; [exact I1|]|].
        * cbn [memit m_log w0]. rewrite !open_snoc. reflexivity.
        * exists [Begin (Construct a); End (Construct a)]. cbn [memit m_log w0]. rewrite <- app_assoc. reflexivity.
    - set (w0 := memit w (Begin (Destroy a))) in *.
      assert (G : forall tab cnt, minv (MW tab cnt (m_log w0 ++ [End (Destroy a)])) ->
                msafe w (MOk (memit (MW tab cnt (m_log w0)) (End (Destroy a))))).
      { intros tab cnt I1. split; [split; [exact I1|]|].
        * cbn [memit m_log w0]. rewrite !open_snoc. reflexivity.
        * exists [Begin (Destroy a); End (Destroy a)]. cbn [memit m_log w0]. rewrite <- app_assoc. reflexivity. }
      destruct (Nat.eq_dec (m_cnt w0) Sources) as [E|N].
      + destruct (in_dec Pos.eq_dec a (registered (m_log w0))) as [HI|HN].
        * rewrite (destroy_full w0 a I0 E HI). cbn [lift mbind]. split; [left; rewrite <- (mi_cnt w0 I0); exact E|exact P0].
        * destruct (minv_destroy w0 a I0 (or_intror HN)) as (tab & cnt & Ht & I1). rewrite Ht. cbn [lift mbind].
          apply G, I1.
      + destruct (minv_destroy w0 a I0) as (tab & cnt & Ht & I1); [left; lia|]. rewrite Ht. cbn [lift mbind].
        apply G, I1.
    - apply finish_safe; [exact I|exact Logic.I|].
      assert (SN : sends_now (Some a) (m_log (memit w (Begin (ModSend a v))))) by (eexists; eexists; exact O0).
      destruct (sender_safe (Some a) _ I0 SN) as [E|[E HB]]; rewrite E; cbn [mbind]; [|apply msafe_bad, HB].
      assert (OH : forall e, plain e -> match e with Begin _ | End _ | Threw _ => False | _ => True end ->
                open_calls (m_log (memit (memit w (Begin (ModSend a v))) e)) = open_calls (m_log (memit w (Begin (ModSend a v))))).
      { intros e _ He. cbn [memit m_log]. rewrite !(open_snoc (_ ++ _)). destruct e; try destruct He; reflexivity. }
      eapply msafe_pre; [apply (OH (Hook (id_of hash desc a) (enc (md_sends (desc a)) v)) Logic.I Logic.I)| |].
      { eexists. reflexivity. }
      apply msafe_bind; [apply mbody_safe; [exact IH|]; apply memit_plain; [exact I0|exact Logic.I]|].
      intros w1 I1 EO. apply mloop_safe; [exact IH|exact I1|].
      eapply sends_now_open; [exact EO|]. eapply sends_now_open; [|exact SN]. apply OH; exact Logic.I.
    - apply finish_safe; [exact I|exact Logic.I|]. apply mloop_safe; [exact IH|exact I0|exact Logic.I].
  Qed.

  Lemma mrun_all_safe f l : forall w, minv w -> msafe w (mrun_all hash enc desc Sources handler hook f w l).
  Proof.
    induction l as [|c l IH]; intros w I; cbn [mrun_all]; [apply msafe_refl, I|].
    pose proof (mrun_safe f w c I) as HS.
    destruct (mrun f w c) as [w1|w1|log|]; [| |exact HS|exact HS];
      destruct HS as [[I1 EO] HL]; (eapply msafe_pre; [exact EO|exact HL|]; apply IH, I1).
  Qed.

  Lemma mreach_inv w : mreaches hash enc desc Sources handler hook w -> minv w.
  Proof.
    intros (f & l & E). pose proof (mrun_all_safe f l _ minv_fresh) as HS. rewrite E in HS. apply HS.
  Qed.

  (** Handlers that return at once: a send always comes back. *)
  Lemma mloop_returns step snd id bs k : (forall log a D b, handler log a D b = MReturn) ->
    forall i w, minv w -> there snd (m_log w) -> (i <= m_cnt w)%nat -> (m_cnt w < i + k)%nat ->
    exists w', mloop hash desc handler step snd id bs k i w = MOk w'.
  Proof.
    intros P. induction k as [|k IH]; intros i w I TH L1 L2; [lia|]. cbn [mloop].
    destruct (Nat.ltb_spec i (m_cnt w)) as [L|L]; [|exists w; reflexivity].
    destruct (minv_slot w i I L) as (a & Ha & _). rewrite Ha. cbn [lift mbind].
    rewrite (there_read snd w TH). cbn [mbind].
    destruct (id_of hash desc a =? id); [apply IH; [exact I|exact TH|lia|lia]|].
    assert (R : forall recvs, incl recvs (md_recvs (desc a)) ->
              exists w1, receiver_converter hash handler step a recvs id bs w = MOk w1 /\ minv w1 /\ m_cnt w1 = m_cnt w /\
                there snd (m_log w1)).
    { induction recvs as [|D recvs IHr]; intros HI; cbn [receiver_converter].
      - exists w. tauto.
      - destruct (id =? hash (ty_name D)).
        + unfold convert_field. destruct (Nat.eqb_spec (ty_size D) (length bs)) as [E|N]; cbn [negb].
          * rewrite E, read_bytes_all. cbn [lift mbind]. rewrite P. cbn [mbody_run].
            eexists. split; [reflexivity|]. split; [|split; [reflexivity|]].
            -- apply memit_plain; [exact I|]. split; [symmetry; exact E|]. apply HI. left. reflexivity.
            -- eapply there_reg; [|exact TH]. cbn [memit m_log]. rewrite registered_snoc. reflexivity.
          * exists w. tauto.
        + apply IHr. intros x Hx. apply HI. right. exact Hx. }
    destruct (R _ (incl_refl _)) as (w1 & E1 & I1 & C1 & T1). rewrite E1. cbn [mbind].
    apply IH; [exact I1|exact T1|lia|lia].
  Qed.

  (** ** handlers that do not destroy modules: what one message does *)

  (** What a module does with a message. *)
  Definition reaction (id : Z) (bs : list Z) (a : addr) : list mev :=
    if id_of hash desc a =? id then []
    else match find (fun D => id =? hash (ty_name D)) (md_recvs (desc a)) with
         | Some D => if (ty_size D =? length bs)%nat then [Recv a D bs] else []
         | None => []
         end.

  (** What handlers may call: anything but destructors. *)
  Variable P : mcall -> Prop.
  Hypothesis PND : forall a, ~ P (Destroy a).
  Hypothesis OS : forall log a D bs, calls_only P (handler log a D bs).
  Hypothesis OH : forall log id bs, calls_only P (hook log id bs).

  (** [s] was done; the registered modules are the earlier ones and perhaps new ones. *)
  Record grown (w w' : mworld) (s : list mev) : Prop := {
    gr_log : m_log w' = m_log w ++ s;
    gr_reg : exists new, registered (m_log w') = registered (m_log w) ++ new;
    gr_inv : minv w';
    gr_calls : forall c, In (End c) s -> P c }.
  Lemma grown_refl w : minv w -> grown w w [].
  Proof.
    intros I. split; [rewrite app_nil_r; reflexivity|exists []; rewrite app_nil_r; reflexivity|exact I|intros c []].
  Qed.
  Lemma grown_trans w w1 w2 s1 s2 : grown w w1 s1 -> grown w1 w2 s2 -> grown w w2 (s1 ++ s2).
  Proof.
    intros [A1 [n1 A2] A3 A4] [B1 [n2 B2] B3 B4]. split; [| |exact B3|].
    - rewrite B1, A1, app_assoc. reflexivity.
    - exists (n1 ++ n2). rewrite B2, A2, app_assoc. reflexivity.
    - intros c H. rewrite in_app_iff in H. destruct H; [apply A4|apply B4]; assumption.
  Qed.
  Definition quiet_ev (e : mev) : Prop := match e with End _ => False | _ => True end.
  Lemma grown_emit w e : minv w -> plain e -> quiet_ev e -> grown w (memit w e) [e].
  Proof.
    intros I HP HQ. split; [reflexivity| |apply memit_plain; assumption|].
    - exists []. cbn [memit m_log]. rewrite registered_snoc, app_nil_r. destruct e; try destruct HQ; reflexivity.
    - intros c [H|[]]. subst e. destruct HQ.
  Qed.

  Definition sends (c : mcall) : Prop := match c with ModSend _ _ | MgrSend _ _ => True | _ => False end.
  Definition comes (x : mres mworld) (w' : mworld) : Prop := x = MOk w' \/ x = MExc w'.

  Section Step2.
    Variable step : mworld -> mcall -> mres mworld.
    Hypothesis step_ok : forall w c w', minv w -> P c -> comes (step w c) w' ->
      exists s, grown w w' s /\ closed_seg s.

    Lemma mbody_quiet b : calls_only P b -> forall w w', minv w -> comes (mbody_run step b w) w' ->
      exists s, grown w w' s /\ closed_seg s.
    Proof.
      induction 1 as [| |c k HP _ IH]; intros w w' I E; cbn [mbody_run] in E.
      - destruct E as [E|E]; [|discriminate]. inversion E; subst. exists []. split; [apply grown_refl, I|apply closed_nil].
      - destruct E as [E|E]; [discriminate|]. inversion E; subst. exists []. split; [apply grown_refl, I|apply closed_nil].
      - destruct (step w c) as [w1|w1|log|] eqn:E1; [| |destruct E; discriminate|destruct E; discriminate].
        + destruct (step_ok w c w1 I HP (or_introl E1)) as (s1 & S1 & C1).
          destruct (IH (m_log w1) w1 w' (gr_inv _ _ _ S1) E) as (s2 & S2 & C2).
          exists (s1 ++ s2). split; [eapply grown_trans; eassumption|]. apply closed_app; assumption.
        + destruct (step_ok w c w1 I HP (or_intror E1)) as (s1 & S1 & C1).
          destruct (IH (m_log w1) w1 w' (gr_inv _ _ _ S1) E) as (s2 & S2 & C2).
          exists (s1 ++ s2). split; [eapply grown_trans; eassumption|]. apply closed_app; assumption.
    Qed.

    (** Left by an exception: only by a handler that was started. *)
    Lemma receiver_quiet a id bs recvs : forall w w', minv w -> incl recvs (md_recvs (desc a)) ->
      comes (receiver_converter hash handler step a recvs id bs w) w' ->
      exists s, grown w w' s /\
        let got := match find (fun D => id =? hash (ty_name D)) recvs with
                   | Some D => if (ty_size D =? length bs)%nat then [Recv a D bs] else []
                   | None => []
                   end in
        inside s got /\ (receiver_converter hash handler step a recvs id bs w = MExc w' -> got <> []).
    Proof.
      induction recvs as [|D recvs IH]; intros w w' I HI E; cbn [receiver_converter find] in *.
      - exists []. destruct E as [E|E]; inversion E; subst. split; [apply grown_refl, I|]. split; [apply inside_nil|discriminate].
      - destruct (id =? hash (ty_name D)).
        + unfold convert_field in *. destruct (Nat.eqb_spec (ty_size D) (length bs)) as [ES|NS]; cbn [negb] in *.
          * rewrite ES, read_bytes_all in *. cbn [lift mbind] in *.
            assert (PL : plain (Recv a D bs)).
            { cbn. split; [symmetry; exact ES|]. apply HI. left. reflexivity. }
            pose proof (grown_emit w _ I PL Logic.I) as G0.
            destruct (mbody_quiet _ (OS _ _ _ _) _ w' (gr_inv _ _ _ G0) E) as (s & S1 & C1).
            exists (Recv a D bs :: s). split; [exact (grown_trans _ _ _ _ _ G0 S1)|].
            split; [apply inside_recv, C1|discriminate].
          * exists []. destruct E as [E|E]; inversion E; subst. split; [apply grown_refl, I|]. split; [apply inside_nil|discriminate].
        + apply IH; [exact I| |exact E]. intros x Hx. apply HI. right. exact Hx.
    Qed.

    Lemma mloop_quiet snd id bs k : forall i w w', minv w ->
      comes (mloop hash desc handler step snd id bs k i w) w' ->
      exists s, grown w w' s /\
        (mloop hash desc handler step snd id bs k i w = MOk w' ->
         inside s (flat_map (reaction id bs) (skipn i (registered (m_log w'))))) /\
        (mloop hash desc handler step snd id bs k i w = MExc w' ->
         exists p a q, skipn i (registered (m_log w')) = p ++ a :: q /\ reaction id bs a <> [] /\
           inside s (flat_map (reaction id bs) (p ++ [a]))).
    Proof.
      induction k as [|k IH]; intros i w w' I E; cbn [mloop] in *; [destruct E; discriminate|].
      destruct (Nat.ltb_spec i (m_cnt w)) as [L|L].
      - destruct (minv_slot w i I L) as (a & Ha & Hn). rewrite Ha in *. cbn [lift mbind] in *.
        destruct (sender_read snd w) as [[]|we|log|] eqn:ESR;
          [| |destruct E; discriminate|destruct E; discriminate].
        2:{ exfalso. exact (sender_no_exc _ _ _ ESR). }
        cbn [mbind] in *.
        assert (SK : forall w2 s2, grown w w2 s2 -> skipn i (registered (m_log w2)) = a :: skipn (S i) (registered (m_log w2))).
        { intros w2 s2 G. apply skipn_nth. destruct (gr_reg _ _ _ G) as [new ->].
          rewrite nth_error_app1; [exact Hn|]. rewrite <- (mi_cnt w I). exact L. }
        destruct (id_of hash desc a =? id) eqn:EI.
        + destruct (IH (S i) w w' I E) as (s & G & Hok & Hex). exists s. split; [exact G|]. rewrite (SK _ _ G).
          assert (RN : reaction id bs a = []) by (unfold reaction; rewrite EI; reflexivity).
          split.
          * intros EO. cbn [flat_map]. rewrite RN. apply Hok, EO.
          * intros EX. destruct (Hex EX) as (p & b & q & A & B & C). exists (a :: p), b, q. rewrite A.
            split; [reflexivity|]. split; [exact B|]. cbn [app flat_map]. rewrite RN. exact C.
        + destruct (receiver_converter hash handler step a (md_recvs (desc a)) id bs w) as [w1|w1|log|] eqn:E1;
            cbn [mbind] in *; [| |destruct E; discriminate|destruct E; discriminate].
          * destruct (receiver_quiet a id bs _ w w1 I (incl_refl _) (or_introl E1)) as (s1 & G1 & C1 & _).
            destruct (IH (S i) w1 w' (gr_inv _ _ _ G1) E) as (s2 & G2 & Hok & Hex).
            pose proof (grown_trans _ _ _ _ _ G1 G2) as G.
            exists (s1 ++ s2). split; [exact G|]. rewrite (SK _ _ G).
            assert (RC : inside s1 (reaction id bs a)) by (unfold reaction; rewrite EI; exact C1).
            split.
            -- intros EO. cbn [flat_map]. apply inside_app; [exact RC|]. apply Hok, EO.
            -- intros EX. destruct (Hex EX) as (p & b & q & A & B & C). exists (a :: p), b, q. rewrite A.
               split; [reflexivity|]. split; [exact B|]. cbn [app flat_map]. apply inside_app; assumption.
          * destruct E as [E|E]; [discriminate|]. inversion E; subst w1.
            destruct (receiver_quiet a id bs _ w w' I (incl_refl _) (or_intror E1)) as (s1 & G1 & C1 & NE).
            exists s1. split; [exact G1|]. split; [discriminate|]. intros _.
            exists [], a, (skipn (S i) (registered (m_log w'))). split; [apply (SK _ _ G1)|].
            assert (RE : reaction id bs a = match find (fun D => id =? hash (ty_name D)) (md_recvs (desc a)) with
                   | Some D => if (ty_size D =? length bs)%nat then [Recv a D bs] else [] | None => [] end)
              by (unfold reaction; rewrite EI; reflexivity).
            split; [rewrite RE; apply NE, E1|]. cbn [app flat_map]. rewrite app_nil_r, RE. exact C1.
      - destruct E as [E|E]; inversion E; subst. exists []. split; [apply grown_refl, I|]. split; [|discriminate]. intros _.
        rewrite skipn_all2 by (rewrite <- (mi_cnt w' I); exact L). apply inside_nil.
    Qed.
  End Step2.

  Definition payload (c : mcall) (id : Z) (bs : list Z) : Prop :=
    match c with
    | ModSend a v => id = id_of hash desc a /\ bs = enc (md_sends (desc a)) v
    | MgrSend D v => id = hash (ty_name D) /\ bs = enc D v
    | _ => False
    end.

  (** One send, from inside: before the final event. *)
  Lemma msend_quiet f : forall w c w' id bs, minv w -> payload c id bs -> comes (mrun f w c) w' ->
    exists s e, m_log w' = m_log w ++ Begin c :: s ++ [e] /\
      (exists new, registered (m_log w') = registered (m_log w) ++ new) /\ minv w' /\
      (forall c', In (End c') s -> P c') /\
      ((mrun f w c = MOk w' /\ e = End c /\
        inside s (told hash enc desc c ++ flat_map (reaction id bs) (registered (m_log w')))) \/
       (mrun f w c = MExc w' /\ e = Threw c /\
        ((told hash enc desc c <> [] /\ inside s (told hash enc desc c)) \/
         exists p a q, registered (m_log w') = p ++ a :: q /\ reaction id bs a <> [] /\
           inside s (told hash enc desc c ++ flat_map (reaction id bs) (p ++ [a]))))).
  Proof.
    induction f as [|f IH]; intros w c w' id bs I HC E; [destruct E; discriminate|].
    assert (ST : forall w c w', minv w -> P c -> comes (mrun f w c) w' -> exists s, grown w w' s /\ closed_seg s).
    { intros w1 c1 w2 I1 PC E1.
      assert (SD : sends c1 -> exists s, grown w1 w2 s /\ closed_seg s).
      { intros SC. assert (PY : exists id1 bs1, payload c1 id1 bs1)
          by (destruct c1; try destruct SC; eexists; eexists; split; reflexivity).
        destruct PY as (id1 & bs1 & PY).
        destruct (IH w1 c1 w2 id1 bs1 I1 PY E1) as (s & e & A & B & C & D0 & F).
        exists (Begin c1 :: s ++ [e]). split.
        - split; [exact A|exact B|exact C|]. intros c' [H|H]; [discriminate|]. rewrite in_app_iff in H.
          destruct H as [H|[H|[]]]; [apply D0, H|].
          destruct F as [(_ & -> & _)|(_ & -> & _)]; inversion H; subst; exact PC.
        - destruct F as [(_ & -> & F)|(_ & -> & [[_ F]|(p & a & q & _ & _ & F)])]; eapply inside_closed; eauto. }
      destruct c1 as [a|a|a v|D v]; [|destruct (PND a PC)|apply SD; exact Logic.I|apply SD; exact Logic.I].
      destruct f as [|f']; [destruct E1; discriminate|]. cbn [MediatorModel.mrun] in E1.
      assert (I0 : minv (memit w1 (Begin (Construct a)))) by (apply memit_plain; [exact I1|exact Logic.I]).
      pose proof (minv_le _ I0) as LE.
      destruct (Nat.eq_dec (m_cnt (memit w1 (Begin (Construct a)))) Sources) as [EQ|N].
      { rewrite (construct_full _ a I0 EQ) in E1. destruct E1; discriminate. }
      destruct (minv_construct _ a I0 ltac:(lia)) as (tab & Ht & I2). rewrite Ht in E1. cbn [lift mbind] in E1.
      destruct E1 as [E1|E1]; [|discriminate]. inversion E1; subst w2. clear E1.
      exists [Begin (Construct a); End (Construct a)]. split.
      - split; cbn [memit m_log] in *.
        + rewrite <- app_assoc. reflexivity.
        + exists [a]. rewrite !registered_snoc. reflexivity.
        + exact I2.
        + intros c' [H|[H|[]]]; [discriminate|]. inversion H; subst. exact PC.
      - intros d r. reflexivity. }
    cbn [MediatorModel.mrun] in E |- *.
    assert (I0 : minv (memit w (Begin c))) by (apply memit_plain; [exact I|exact Logic.I]).
    pose proof (grown_emit w (Begin c) I Logic.I Logic.I) as G0.
    (* the hook *)
    assert (G : forall x, comes match x with
                   | MOk w1 => MOk (memit w1 (End c)) | MExc w1 => MExc (memit w1 (Threw c))
                   | MUB l => MUB l | MFuel => MFuel end w' -> exists w1, comes x w1 /\
                   ((x = MOk w1 /\ w' = memit w1 (End c)) \/ (x = MExc w1 /\ w' = memit w1 (Threw c)))).
    { intros x [H|H]; destruct x as [w1|w1|l|]; try discriminate; inversion H; subst; exists w1;
        (split; [(left; reflexivity) || (right; reflexivity)|tauto]). }
    assert (WRAP : forall x w1 s, comes x w1 -> grown (memit w (Begin c)) w1 s ->
       ((x = MOk w1 /\ w' = memit w1 (End c)) \/ (x = MExc w1 /\ w' = memit w1 (Threw c))) ->
       (x = MOk w1 -> inside s (told hash enc desc c ++ flat_map (reaction id bs) (registered (m_log w1)))) ->
       (x = MExc w1 -> (told hash enc desc c <> [] /\ inside s (told hash enc desc c)) \/
         exists p a q, registered (m_log w1) = p ++ a :: q /\ reaction id bs a <> [] /\
           inside s (told hash enc desc c ++ flat_map (reaction id bs) (p ++ [a]))) ->
       exists s e, m_log w' = m_log w ++ Begin c :: s ++ [e] /\
      (exists new, registered (m_log w') = registered (m_log w) ++ new) /\ minv w' /\
      (forall c', In (End c') s -> P c') /\
      ((match x with
                   | MOk w1 => MOk (memit w1 (End c)) | MExc w1 => MExc (memit w1 (Threw c))
                   | MUB l => MUB l | MFuel => MFuel end = MOk w' /\ e = End c /\
        inside s (told hash enc desc c ++ flat_map (reaction id bs) (registered (m_log w')))) \/
       (match x with
                   | MOk w1 => MOk (memit w1 (End c)) | MExc w1 => MExc (memit w1 (Threw c))
                   | MUB l => MUB l | MFuel => MFuel end = MExc w' /\ e = Threw c /\
        ((told hash enc desc c <> [] /\ inside s (told hash enc desc c)) \/
         exists p a q, registered (m_log w') = p ++ a :: q /\ reaction id bs a <> [] /\
           inside s (told hash enc desc c ++ flat_map (reaction id bs) (p ++ [a])))))).
    { intros x w1 s CX GR HW H1 H2.
      assert (RW : forall e, e = End c \/ e = Threw c -> registered (m_log w1 ++ [e]) = registered (m_log w1)).
      { intros e [-> | ->]; rewrite registered_snoc; destruct c; try destruct HC; reflexivity. }
      assert (LG : forall e, m_log w1 ++ [e] = m_log w ++ Begin c :: s ++ [e]).
      { intros e. rewrite (gr_log _ _ _ GR). cbn [memit m_log]. rewrite <- !app_assoc. reflexivity. }
      assert (NW : exists new, registered (m_log w1) = registered (m_log w) ++ new).
      { destruct (gr_reg _ _ _ GR) as [new ->]. exists new. cbn [memit m_log]. rewrite registered_snoc. reflexivity. }
      destruct HW as [[EX EW]|[EX EW]]; subst w'; rewrite EX in *.
      - exists s, (End c). cbn [memit m_log]. rewrite RW by tauto. split; [apply LG|]. split; [exact NW|].
        split; [apply memit_plain; [exact (gr_inv _ _ _ GR)|]; destruct c; try destruct HC; exact Logic.I|].
        split; [exact (gr_calls _ _ _ GR)|]. left. split; [reflexivity|]. split; [reflexivity|]. apply H1. reflexivity.
      - exists s, (Threw c). cbn [memit m_log]. rewrite RW by tauto. split; [apply LG|]. split; [exact NW|].
        split; [apply memit_plain; [exact (gr_inv _ _ _ GR)|exact Logic.I]|].
        split; [exact (gr_calls _ _ _ GR)|]. right. split; [reflexivity|]. split; [reflexivity|]. apply H2. reflexivity. }
    destruct c as [a|a|a v|D v]; try destruct HC; subst id bs.
    - destruct (G _ E) as (w1 & CX & HW).
      destruct (sender_read (Some a) (memit w (Begin (ModSend a v)))) as [[]|we|l|] eqn:ESR; cbn [mbind] in *;
        [| |destruct CX; discriminate|destruct CX; discriminate].
      2:{ exfalso. exact (sender_no_exc _ _ _ ESR). }
      pose proof (grown_emit _ (Hook (id_of hash desc a) (enc (md_sends (desc a)) v)) I0 Logic.I Logic.I) as GH.
      destruct (mbody_run (mrun f) _ _) as [w2|w2|l|] eqn:EH; cbn [mbind] in *;
        [| |destruct CX; discriminate|destruct CX; discriminate].
      + destruct (mbody_quiet (mrun f) ST _ (OH _ _ _) _ w2 (gr_inv _ _ _ GH) (or_introl EH)) as (s1 & G1 & C1).
        destruct (mloop_quiet (mrun f) ST (Some a) _ _ _ 0 w2 w1 (gr_inv _ _ _ G1) CX) as (s2 & G2 & H1 & H2).
        pose proof (inside_hook (id_of hash desc a) (enc (md_sends (desc a)) v) s1 C1) as IHK.
        eapply (WRAP _ w1 ((Hook (id_of hash desc a) (enc (md_sends (desc a)) v) :: s1) ++ s2) CX).
        * exact (grown_trans _ _ _ _ _ (grown_trans _ _ _ _ _ GH G1) G2).
        * exact HW.
        * intros EX. apply inside_app; [exact IHK|]. exact (H1 EX).
        * intros EX. right. destruct (H2 EX) as (p & b & q & A & B & C). exists p, b, q.
          split; [exact A|]. split; [exact B|]. apply inside_app; [exact IHK|exact C].
      + destruct (mbody_quiet (mrun f) ST _ (OH _ _ _) _ w2 (gr_inv _ _ _ GH) (or_intror EH)) as (s1 & G1 & C1).
        assert (w1 = w2) by (destruct CX as [CX|CX]; [discriminate|inversion CX; reflexivity]). subst w2.
        eapply (WRAP _ w1 (Hook (id_of hash desc a) (enc (md_sends (desc a)) v) :: s1) CX).
        * exact (grown_trans _ _ _ _ _ GH G1).
        * exact HW.
        * discriminate.
        * intros _. left. split; [discriminate|]. apply inside_hook, C1.
    - destruct (G _ E) as (w1 & CX & HW).
      destruct (mloop_quiet (mrun f) ST None _ _ _ 0 _ w1 I0 CX) as (s2 & G2 & H1 & H2).
      eapply (WRAP _ w1 s2 CX G2 HW).
      + intros EX. exact (H1 EX).
      + intros EX. right. destruct (H2 EX) as (p & b & q & A & B & C). exists p, b, q. tauto.
  Qed.

  (** Nothing constructed: the registered modules stay the same. *)
  Lemma no_construct log s : (forall c, In (End c) s -> sends c) -> registered (log ++ s) = registered log.
  Proof.
    intros H. unfold registered. rewrite fold_left_app.
    generalize (fold_left reg_step log []). induction s as [|e s IH]; intros l; cbn; [reflexivity|].
    rewrite IH by (intros c Hc; apply H; right; exact Hc).
    destruct e as [c|id b|a D b|c|c]; try reflexivity.
    specialize (H c (or_introl eq_refl)). destruct c; try destruct H; reflexivity.
  Qed.

  (** Without collisions the reaction is the intended one. *)
  Lemma reaction_wants D bs a : length bs = ty_size D ->
    (forall D', in_use desc D' -> hash (ty_name D') = hash (ty_name D) -> D' = D) ->
    reaction (hash (ty_name D)) bs a = if wants desc D a then [Recv a D bs] else [].
  Proof.
    intros HL HU. unfold reaction, wants, id_of.
    assert (US : md_sends (desc a) = D <-> hash (ty_name (md_sends (desc a))) = hash (ty_name D)).
    { split; [intros ->; reflexivity|]. apply HU. exists a. left. reflexivity. }
    assert (UR : forall l, incl l (md_recvs (desc a)) ->
              find (fun D0 => hash (ty_name D) =? hash (ty_name D0)) l = if in_dec mty_eq_dec D l then Some D else None).
    { induction l as [|x l IH]; intros HI; [reflexivity|]. cbn [find].
      assert (HI' : incl l (md_recvs (desc a))) by (intros y Hy; apply HI; right; exact Hy).
      specialize (IH HI').
      destruct (Z.eqb_spec (hash (ty_name D)) (hash (ty_name x))) as [E|N].
      - assert (x = D). { apply HU; [|congruence]. exists a. right. apply HI. left. reflexivity. }
        subst x. destruct (in_dec mty_eq_dec D (D :: l)) as [_|H]; [reflexivity|]. exfalso. apply H. left. reflexivity.
      - rewrite IH. destruct (in_dec mty_eq_dec D l) as [H|H], (in_dec mty_eq_dec D (x :: l)) as [H'|H']; try reflexivity.
        + exfalso. apply H'. right. exact H.
        + destruct H' as [H'|H']; [subst x; congruence|contradiction]. }
    rewrite (UR _ (incl_refl _)).
    destruct (Z.eqb_spec (hash (ty_name (md_sends (desc a)))) (hash (ty_name D))) as [E|N];
      destruct (mty_eq_dec (md_sends (desc a)) D) as [E'|N']; try tauto;
      destruct (in_dec mty_eq_dec D (md_recvs (desc a))); rewrite ?HL, ?Nat.eqb_refl; reflexivity.
  Qed.

  Lemma reactions_wants D bs l : length bs = ty_size D ->
    (forall D', in_use desc D' -> hash (ty_name D') = hash (ty_name D) -> D' = D) ->
    flat_map (reaction (hash (ty_name D)) bs) l = map (fun a => Recv a D bs) (filter (wants desc D) l).
  Proof.
    intros HL HU. induction l as [|a l IH]; cbn [flat_map filter]; [reflexivity|].
    rewrite (reaction_wants D bs a HL HU), IH. destruct (wants desc D a); reflexivity.
  Qed.
End Inv.
