(** The book of value observables with lifetimes; arrays. *)
From Verif Require Export VLifeSpec.
From Verif Require Import ObserverProofs1 ValuesProofs3.

(** ** segments *)
Lemma yfinished_app l1 l2 : yfinished l1 -> yfinished l2 -> yfinished (l1 ++ l2).
Proof.
  induction 1 as [|s op l H IH|s o n l H IH|s o l H IH|c r l l' H IH H' IH']; intros F; cbn [app]; [exact F| | | |].
  - constructor. apply IH, F.
  - constructor. apply IH, F.
  - constructor. apply IH, F.
  - rewrite <- app_assoc. cbn [app]. constructor; [exact H|apply IH', F].
Qed.
Lemma rounds_app l : yfinished l -> forall d l2, rounds d (l ++ l2) = (rounds d l + rounds d l2)%nat.
Proof.
  induction 1 as [|s op l H IH|s o n l H IH|s o l H IH|c r l l' H IH H' IH']; intros d l2; cbn [app rounds].
  - reflexivity.
  - apply IH.
  - rewrite IH. lia.
  - rewrite IH. lia.
  - rewrite <- app_assoc. cbn [app]. rewrite !IH. cbn [rounds pred]. rewrite IH'. lia.
Qed.
Lemma rounds_deep l : yfinished l -> forall d, rounds (S d) l = 0%nat.
Proof.
  induction 1 as [|s op l H IH|s o n l H IH|s o l H IH|c r l l' H IH H' IH']; intros d; cbn [rounds].
  - reflexivity.
  - apply IH.
  - rewrite IH. reflexivity.
  - rewrite IH. reflexivity.
  - rewrite rounds_app by exact H. rewrite IH. cbn [rounds pred]. rewrite IH'. reflexivity.
Qed.
Lemma yfinished_call c r l : yfinished l ->
  yfinished (YBegin c :: l ++ [YRet c r]) /\ rounds 0 (YBegin c :: l ++ [YRet c r]) = 0%nat.
Proof.
  intros F. split; [constructor; [exact F|constructor]|]. cbn [rounds]. rewrite rounds_app by exact F.
  rewrite rounds_deep by exact F. reflexivity.
Qed.

(** The innermost open call is determined. *)
Fixpoint begins (l : list yev) : nat := match l with [] => 0 | YBegin _ :: r => S (begins r) | _ :: r => begins r end.
Fixpoint ends (l : list yev) : nat := match l with [] => 0 | YRet _ _ :: r => S (ends r) | _ :: r => ends r end.
Lemma begins_app l m : begins (l ++ m) = (begins l + begins m)%nat.
Proof. induction l as [|[] l IH]; cbn [app begins]; rewrite ?IH; reflexivity. Qed.
Lemma ends_app l m : ends (l ++ m) = (ends l + ends m)%nat.
Proof. induction l as [|[] l IH]; cbn [app ends]; rewrite ?IH; reflexivity. Qed.
Lemma fin_balanced l : yfinished l -> begins l = ends l.
Proof.
  induction 1 as [|s op l H IH|s o n l H IH|s o l H IH|c r l l' H IH H' IH']; cbn [begins ends]; try assumption; [reflexivity|].
  rewrite begins_app, ends_app. cbn [begins ends]. lia.
Qed.
Lemma fin_suffix l : yfinished l -> forall a b, l = a ++ b -> (begins b <= ends b)%nat.
Proof.
  induction 1 as [|s op l H IH|s o n l H IH|s o l H IH|c r l l' H IH H' IH']; intros a b E.
  - symmetry in E. apply app_eq_nil in E. destruct E as [_ ->]. cbn. lia.
  - destruct a as [|x a]; cbn [app] in E; [subst b; cbn [begins ends]; rewrite (fin_balanced l H); lia|]. injection E as _ E. eapply IH, E.
  - destruct a as [|x a]; cbn [app] in E; [subst b; cbn [begins ends]; rewrite (fin_balanced l H); lia|]. injection E as _ E. eapply IH, E.
  - destruct a as [|x a]; cbn [app] in E; [subst b; cbn [begins ends]; rewrite (fin_balanced l H); lia|]. injection E as _ E. eapply IH, E.
  - destruct a as [|x a]; cbn [app] in E.
    { subst b. cbn [begins ends]. rewrite begins_app, ends_app. cbn [begins ends].
      rewrite (fin_balanced l H), (fin_balanced l' H'). lia. }
    injection E as _ E.
    destruct (app_eq_app _ _ _ _ E) as (m & [[Ea Eb]|[Ea Eb]]).
    + (* the suffix starts in the call *)
      subst b. rewrite begins_app, ends_app. cbn [begins ends]. pose proof (IH _ _ Ea). rewrite (fin_balanced l' H'). lia.
    + destruct m as [|y m]; cbn [app] in Eb.
      { subst b. cbn [begins ends]. rewrite (fin_balanced l' H'). lia. }
      injection Eb as _ Eb. eapply IH', Eb.
Qed.
Lemma innermost_unique b1 c1 s1 b2 c2 s2 : yfinished s1 -> yfinished s2 ->
  b1 ++ YBegin c1 :: s1 = b2 ++ YBegin c2 :: s2 -> b1 = b2 /\ c1 = c2 /\ s1 = s2.
Proof.
  intros F1 F2 E. destruct (app_eq_app _ _ _ _ E) as (m & [[Ea Eb]|[Ea Eb]]).
  - destruct m as [|y m]; cbn [app] in Eb; [injection Eb as <- <-; rewrite app_nil_r in Ea; auto|].
    exfalso. injection Eb as _ Eb. pose proof (fin_suffix s2 F2 _ _ Eb) as H. cbn [begins ends] in H.
    rewrite (fin_balanced s1 F1) in H. lia.
  - destruct m as [|y m]; cbn [app] in Eb; [injection Eb as <- <-; rewrite app_nil_r in Ea; auto|].
    exfalso. injection Eb as _ Eb. pose proof (fin_suffix s1 F1 _ _ Eb) as H. cbn [begins ends] in H.
    rewrite (fin_balanced s2 F2) in H. lia.
Qed.

(** ** std::remove in front of other elements *)
Lemma slot_tail a t i p : slot a i = Ok p -> slot (a ++ t) i = Ok p.
Proof.
  unfold slot. destruct (nth_error a i) as [x|] eqn:E; [|discriminate]. intros H.
  rewrite nth_error_app1 by (apply nth_error_Some; congruence). rewrite E. exact H.
Qed.
Lemma set_nth_tail a t : forall i v, (i < length a)%nat -> set_nth (a ++ t) i v = set_nth a i v ++ t.
Proof.
  induction a as [|x a IH]; intros i v L; cbn [length] in L; [lia|].
  destruct i as [|i]; cbn [app set_nth]; [reflexivity|]. rewrite IH by lia. reflexivity.
Qed.
Lemma put_tail a t i v a' : put_slot a i v = Ok a' -> put_slot (a ++ t) i v = Ok (a' ++ t).
Proof.
  unfold put_slot. destruct (nth_error a i) as [x|] eqn:E; [|discriminate]. intros H. inversion H; subst.
  assert (L : (i < length a)%nat) by (apply nth_error_Some; congruence).
  rewrite nth_error_app1 by exact L. rewrite E, set_nth_tail by exact L. reflexivity.
Qed.
Lemma compact_tail t o k : forall a r i a' n, compact a r i k o = Ok (a', n) -> compact (a ++ t) r i k o = Ok (a' ++ t, n).
Proof.
  induction k as [|k IH]; intros a r i a' n E; cbn [compact] in *; [inversion E; reflexivity|].
  destruct (slot a i) as [x| |] eqn:ES; cbn [bind] in E; try discriminate. rewrite (slot_tail a t i x ES). cbn [bind].
  destruct (points_to x o); [apply IH, E|].
  destruct (put_slot a r x) as [a1| |] eqn:EP; cbn [bind] in E; try discriminate. rewrite (put_tail a t r x a1 EP). cbn [bind].
  apply IH, E.
Qed.
Lemma find_tail t o k : forall a i n, find_from a i k o = Ok n -> find_from (a ++ t) i k o = Ok n.
Proof.
  induction k as [|k IH]; intros a i n E; cbn [find_from] in *; [exact E|].
  destruct (slot a i) as [x| |] eqn:ES; cbn [bind] in E; try discriminate. rewrite (slot_tail a t i x ES). cbn [bind].
  destruct (points_to x o); [exact E|]. apply IH, E.
Qed.
Lemma remove_tail l t o :
  std_remove (map Some l ++ t) (length l) o = Ok (map Some (without o l ++ tail_left o l) ++ t, length (without o l)).
Proof.
  pose proof (remove_exact l o) as H. unfold std_remove in *.
  destruct (find_from (map Some l) 0 (length l) o) as [f| |] eqn:EF; cbn [bind] in H; try discriminate.
  rewrite (find_tail t o _ _ _ _ EF). cbn [bind]. destruct (f =? length l)%nat; [|apply compact_tail, H].
  injection H as H1 H2. unfold tail_left, without. rewrite <- H1, <- H2. reflexivity.
Qed.
Lemma rest_length o l : length (without o l ++ tail_left o l) = length l.
Proof. apply left_over_length. Qed.
Lemma rest_incl o l x : In x (without o l ++ tail_left o l) -> In x l.
Proof.
  rewrite in_app_iff. intros [H|H]; [apply in_remove in H; apply H|].
  unfold tail_left in H. rewrite <- (firstn_skipn (length (without o l)) l). apply in_or_app. right. exact H.
Qed.
Lemma find_any o l : existsb (fun p => points_to p o) (map Some l) = if in_dec Pos.eq_dec o l then true else false.
Proof.
  destruct (in_dec Pos.eq_dec o l) as [H|H].
  - apply existsb_exists. exists (Some o). split; [apply in_map, H|apply Pos.eqb_refl].
  - destruct (existsb _ _) eqn:E; [|reflexivity]. apply existsb_exists in E. destruct E as (p & HI & HP).
    apply in_map_iff in HI. destruct HI as (q & <- & HQ). cbn [points_to] in HP. apply Pos.eqb_eq in HP. congruence.
Qed.

(** ** the book *)
Section Book.
  Variable ty : addr -> ity.
  Variable Max : addr -> Z.
  Notation booked := (ybooked ty Max).
  Notation step := (ybook_step ty Max).

  Lemma ybooked_snoc log e : booked (log ++ [e]) = step (booked log) e.
  Proof. unfold ybooked. rewrite fold_left_app. reflexivity. Qed.
  Lemma ybooked_app l1 l2 : booked (l1 ++ l2) = fold_left step l2 (booked l1).
  Proof. unfold ybooked. rewrite fold_left_app. reflexivity. Qed.
  Lemma step_events b e : events (step b e) = S (events b).
  Proof. destruct e as [c|s op|s o v|s o|c r]; try reflexivity. destruct c; try reflexivity; destruct r as [[]| |]; reflexivity. Qed.
  Lemma events_length log : events (booked log) = length log.
  Proof.
    induction log as [|e log IH] using rev_ind; [reflexivity|]. rewrite ybooked_snoc, step_events, app_length, IH. cbn [length]. lia.
  Qed.

  (** What one event does to one observable. *)
  Inductive change (b : ybook) (s : addr) : option entry -> option entry -> Prop :=
  | ch_same x : change b s x x
  | ch_born z : change b s z (Some (Entry 0 [] [] (events b)))
  | ch_gone z : change b s z None
  | ch_new x y : e_since y = events b -> change b s (Some x) (Some y)
  | ch_edit x y : e_since y = e_since x -> (length (e_regs x ++ e_old x) <= length (e_regs y ++ e_old y))%nat ->
      change b s (Some x) (Some y).
  Lemma on_entry_change b s f : (forall x, e_since (f x) = events b \/ e_since (f x) = e_since x /\
      (length (e_regs x ++ e_old x) <= length (e_regs (f x) ++ e_old (f x)))%nat) ->
    forall h, change b h (obl_at b h) (on_entry b s f h).
  Proof.
    intros H h. unfold on_entry. destruct (obl_at b s) as [x|] eqn:E; [|constructor].
    unfold yset. destruct (Pos.eq_dec h s) as [->|N]; [|constructor]. rewrite E. specialize (H x).
    destruct H as [H|[H1 H2]]; [apply ch_new, H|apply ch_edit; assumption].
  Qed.
  Lemma step_change b e h : change b h (obl_at b h) (obl_at (step b e) h).
  Proof.
    destruct e as [c|s op|s o v|s o|c r]; cbn [ybook_step obl_at]; try constructor.
    - apply on_entry_change. intros x. right. split; [reflexivity|]. cbn [e_regs e_old]. lia.
    - destruct c as [s|s|o|o|s o|s o|s|s n|s op|s|o]; cbn [obl_at]; try constructor.
      + unfold yset. destruct (Pos.eq_dec h s); constructor.
      + unfold yset. destruct (Pos.eq_dec h s); constructor.
      + destruct r as [[]| |]; cbn [obl_at]; try constructor. apply on_entry_change. intros x.
        destruct (vector Max s); [left; reflexivity|right]. split; [reflexivity|]. cbn [e_regs e_old].
        rewrite !app_length. destruct (e_old x); cbn [tl length]; lia.
      + destruct r as [[]| |]; cbn [obl_at]; try constructor. apply on_entry_change. intros x. right.
        destruct (vector Max s); cbn [e_regs e_old e_since]; (split; [reflexivity|]).
        * rewrite !(app_length _ (e_old x)), rest_length. lia.
        * rewrite app_assoc, !app_length. pose proof (rest_length o (e_regs x)) as HR. rewrite app_length in HR. lia.
      + apply on_entry_change. intros x. destruct (vector Max s); [left; reflexivity|right].
        split; [reflexivity|]. cbn [e_regs e_old app]. lia.
  Qed.

  Lemma step_cases b e h y : obl_at (step b e) h = Some y ->
    obl_at b h = Some y \/ e_since y = events b \/
    exists x, obl_at b h = Some x /\ e_since y = e_since x /\
      (length (e_regs x ++ e_old x) <= length (e_regs y ++ e_old y))%nat.
  Proof.
    intros E. pose proof (step_change b e h) as C. rewrite E in C.
    remember (obl_at b h) as z eqn:EZ. remember (Some y) as q eqn:EQ.
    destruct C as [x|z|z|x y0 H|x y0 H HL].
    - left. reflexivity.
    - right. left. injection EQ as <-. reflexivity.
    - discriminate.
    - right. left. injection EQ as <-. exact H.
    - right. right. injection EQ as <-. exists x. split; [reflexivity|]. split; [exact H|exact HL].
  Qed.
  Lemma stamps log : forall s x, obl_at (booked log) s = Some x -> (e_since x < length log)%nat.
  Proof.
    induction log as [|e log IH] using rev_ind; intros s x E; [discriminate|].
    rewrite ybooked_snoc in E. rewrite app_length. cbn [length].
    destruct (step_cases _ _ _ _ E) as [H|[H|(x0 & H & HS & _)]].
    - pose proof (IH s x H). lia.
    - rewrite H, events_length. lia.
    - pose proof (IH s x0 H). lia.
  Qed.
  Lemma later before l : forall s y, obl_at (booked (before ++ l)) s = Some y ->
    (length before <= e_since y)%nat \/
    exists x, obl_at (booked before) s = Some x /\ e_since x = e_since y /\
      (length (e_regs x ++ e_old x) <= length (e_regs y ++ e_old y))%nat.
  Proof.
    induction l as [|e l IH] using rev_ind; intros s y E.
    - rewrite app_nil_r in E. right. exists y. split; [exact E|]. split; [reflexivity|lia].
    - rewrite app_assoc, ybooked_snoc in E.
      destruct (step_cases _ _ _ _ E) as [H|[H|(x0 & H & HS & HX)]].
      + apply IH, H.
      + left. rewrite H, events_length, app_length. lia.
      + destruct (IH s x0 H) as [L|(x & EX & ES & EL)].
        * left. rewrite HS. exact L.
        * right. exists x. split; [exact EX|]. split; [congruence|lia].
  Qed.
  Lemma same_longer before l s x y : obl_at (booked before) s = Some x -> obl_at (booked (before ++ l)) s = Some y ->
    e_since x = e_since y -> (length (e_regs x ++ e_old x) <= length (e_regs y ++ e_old y))%nat.
  Proof.
    intros EX EY ES. destruct (later before l s y EY) as [L|(x' & EX' & _ & HL)].
    - pose proof (stamps before s x EX). lia.
    - congruence.
  Qed.

  (** ** the world and the book *)
  Definition cell_ok (s : addr) (x : option ycell) (y : option entry) : Prop :=
    match x, y with
    | None, None => True
    | Some c, Some e =>
      y_val c = e_val e /\ y_cnt c = length (e_regs e) /\ y_ver c = e_since e /\
      exists r, y_arr c = map Some (e_regs e ++ e_old e) ++ r /\
        if vector Max s then e_old e = [] /\ r = [] else length (y_arr c) = max_observers (Max s)
    | _, _ => False
    end.
  Record yinv (w : yworld) : Prop := {
    yi_cell : forall s, cell_ok s (y_cell w s) (obl_at (booked (y_log w)) s);
    yi_obs : forall o, y_obs w o = obd_at (booked (y_log w)) o
  }.
  Lemma yinv_fresh : yinv yfresh.
  Proof. split; intros; reflexivity. Qed.
  Lemma cell_none w s : yinv w -> y_cell w s = None -> obl_at (booked (y_log w)) s = None.
  Proof. intros I E. pose proof (yi_cell w I s) as H. rewrite E in H. destruct (obl_at _ s); [destruct H|reflexivity]. Qed.
  Lemma cell_some w s x : yinv w -> y_cell w s = Some x ->
    exists e, obl_at (booked (y_log w)) s = Some e /\ cell_ok s (Some x) (Some e).
  Proof.
    intros I E. pose proof (yi_cell w I s) as H. rewrite E in H. destruct (obl_at _ s) as [e|]; [|destruct H].
    exists e. split; [reflexivity|exact H].
  Qed.
  Lemma cell_put f f' a x y : (forall g, cell_ok g (f g) (f' g)) -> cell_ok a x y ->
    forall g, cell_ok g (yput f a x g) (yset f' a y g).
  Proof.
    intros H HX g. unfold yput, yset. destruct (Pos.eqb_spec g a) as [E|N], (Pos.eq_dec g a) as [E'|N']; try congruence.
    apply H.
  Qed.
  Lemma obs_put (f : addr -> option Z) f' a x : (forall b, f b = f' b) -> forall b, yput f a x b = yset f' a x b.
  Proof. intros H b. unfold yput, yset. destruct (Pos.eqb_spec b a) as [E|N], (Pos.eq_dec b a) as [E'|N']; congruence. Qed.
  Lemma cell_edit w s x e f : yinv w -> obl_at (booked (y_log w)) s = Some e -> cell_ok s (Some x) (Some (f e)) ->
    forall g, cell_ok g (yput (y_cell w) s (Some x) g) (on_entry (booked (y_log w)) s f g).
  Proof. intros I E HX g. unfold on_entry. rewrite E. apply cell_put; [apply (yi_cell w I)|exact HX]. Qed.
  Lemma cell_back w s x e : yinv w -> obl_at (booked (y_log w)) s = Some e -> cell_ok s (Some x) (Some e) ->
    forall g, cell_ok g (yput (y_cell w) s (Some x) g) (obl_at (booked (y_log w)) g).
  Proof.
    intros I E HX g. unfold yput. destruct (Pos.eqb_spec g s) as [->|N]; [rewrite E; exact HX|apply (yi_cell w I)].
  Qed.

  (** Events that change no object. *)
  Definition still (e : yev) : Prop :=
    match e with
    | YBegin _ | YDisc _ _ => True
    | YRet (YNotify _ _ | YOp _ _ | YValue _ | YHeld _) _ => True
    | YRet (YAdd _ _ | YRemove _ _) (RErr ok) => False
    | YRet (YAdd _ _ | YRemove _ _) _ => True
    | _ => False
    end.
  Lemma step_still b e : still e -> obl_at (step b e) = obl_at b /\ obd_at (step b e) = obd_at b.
  Proof.
    intros H. destruct e as [c|s op|s o v|s o|c r]; try destruct H; try (split; reflexivity).
    destruct c; try destruct H; try (split; reflexivity); destruct r as [[]| |]; try destruct H; split; reflexivity.
  Qed.
  Lemma yinv_still w e : yinv w -> still e -> yinv (yemit w e).
  Proof.
    intros [H1 H2] Q. destruct (step_still (booked (y_log w)) e Q) as [E1 E2].
    split; intros; cbn [yemit y_cell y_obs y_log]; rewrite ybooked_snoc; [rewrite E1|rewrite E2]; auto.
  Qed.
End Book.
