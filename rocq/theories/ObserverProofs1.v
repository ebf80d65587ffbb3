(** Array lemmas: add, std::remove. *)
From Verif Require Export ObserverSpec.

Lemma slot_app p x t : slot (p ++ x :: t) (length p) = Ok x.
Proof.
  unfold slot. rewrite nth_error_app2 by lia. rewrite Nat.sub_diag. reflexivity.
Qed.

Lemma put_app p x t v : put_slot (p ++ x :: t) (length p) v = Ok (p ++ v :: t).
Proof.
  unfold put_slot. rewrite nth_error_app2 by lia. rewrite Nat.sub_diag. cbn.
  f_equal. induction p as [|y p IH]; cbn; [reflexivity|]. f_equal. exact IH.
Qed.

Lemma contains_spec l : forall p t o,
  contains_from (p ++ map Some l ++ t) (length p) (length l) o
  = Ok (if in_dec Pos.eq_dec o l then true else false).
Proof.
  induction l as [|x l IH]; intros p t o; [reflexivity|].
  cbn [map length contains_from app]. rewrite slot_app. cbn [bind points_to].
  destruct (Pos.eqb_spec x o) as [E|N].
  - destruct (in_dec Pos.eq_dec o (x :: l)) as [H|H]; [reflexivity|].
    exfalso. apply H. left. exact E.
  - specialize (IH (p ++ [Some x]) t o).
    rewrite <- app_assoc in IH. cbn [app] in IH.
    rewrite app_length in IH. cbn [length] in IH.
    replace (length p + 1)%nat with (S (length p)) in IH by lia.
    rewrite IH.
    destruct (in_dec Pos.eq_dec o l) as [H|H];
    destruct (in_dec Pos.eq_dec o (x :: l)) as [H'|H']; try reflexivity; exfalso.
    + apply H'. right. exact H.
    + destruct H' as [E|H']; congruence.
Qed.

Lemma find_spec l : forall p t o,
  (~ In o l /\ find_from (p ++ map Some l ++ t) (length p) (length l) o
              = Ok (length p + length l)%nat) \/
  (exists l1 l2, l = l1 ++ o :: l2 /\ ~ In o l1 /\
     find_from (p ++ map Some l ++ t) (length p) (length l) o = Ok (length p + length l1)%nat).
Proof.
  induction l as [|x l IH]; intros p t o.
  - left. split; [tauto|]. cbn. f_equal. lia.
  - cbn [map length find_from app]. rewrite slot_app. cbn [bind points_to].
    destruct (Pos.eqb_spec x o) as [E|N].
    + right. exists [], l. subst x. cbn. split; [reflexivity|]. split; [tauto|]. f_equal. lia.
    + specialize (IH (p ++ [Some x]) t o).
      rewrite <- app_assoc in IH. cbn [app] in IH.
      rewrite app_length in IH. cbn [length] in IH.
      replace (length p + 1)%nat with (S (length p)) in IH by lia.
      destruct IH as [[H1 H2]|(l1 & l2 & H1 & H2 & H3)].
      * left. split; [cbn; intuition congruence|]. rewrite H2. f_equal. lia.
      * right. exists (x :: l1), l2. subst l. split; [reflexivity|].
        split; [cbn; intuition congruence|]. rewrite H3. cbn. f_equal. lia.
Qed.

Lemma compact_spec rest : forall done g t o, g <> [] ->
  exists g',
    compact (map Some done ++ map Some g ++ map Some rest ++ t)
            (length done) (length done + length g) (length rest) o
    = Ok (map Some (done ++ remove Pos.eq_dec o rest) ++ map Some g' ++ t,
          (length done + length (remove Pos.eq_dec o rest))%nat) /\
    (length g' + length (remove Pos.eq_dec o rest) = length g + length rest)%nat /\
    incl g' (g ++ rest).
Proof.
  induction rest as [|x rest IH]; intros done g t o Hg.
  - exists g. cbn [remove length compact map app]. rewrite !app_nil_r.
    rewrite Nat.add_0_r. split; [reflexivity|]. split; [lia|]. apply incl_refl.
  - cbn [map length compact app].
    assert (E1 : slot (map Some done ++ map Some g ++ Some x :: map Some rest ++ t)
                      (length done + length g) = Ok (Some x)).
    { rewrite app_assoc.
      replace (length done + length g)%nat with (length (map (@Some addr) done ++ map Some g))
        by (rewrite app_length, !map_length; reflexivity).
      apply slot_app. }
    rewrite E1. cbn [bind points_to remove].
    destruct (Pos.eq_dec o x) as [Eo|No].
    + subst x. rewrite Pos.eqb_refl.
      destruct (IH done (g ++ [o]) t o) as (g' & H1 & H2 & H3).
      { destruct g; discriminate. }
      exists g'. rewrite map_app in H1. cbn [map] in H1. rewrite <- app_assoc in H1. cbn [app] in H1.
      rewrite app_length in H1, H2. cbn [length] in H1, H2.
      replace (S (length done + length g)) with (length done + (length g + 1))%nat by lia.
      rewrite H1. split; [reflexivity|]. split; [lia|].
      rewrite <- app_assoc in H3. exact H3.
    + destruct (Pos.eqb_spec x o) as [E|_]; [congruence|].
      destruct g as [|y g]; [congruence|]. cbn [map app].
      assert (E2 : put_slot (map Some done ++ Some y :: map Some g ++ Some x :: map Some rest ++ t)
                            (length done) (Some x)
                   = Ok (map Some done ++ Some x :: map Some g ++ Some x :: map Some rest ++ t)).
      { rewrite <- (map_length (@Some addr) done) at 1. apply put_app. }
      rewrite E2. cbn [bind].
      destruct (IH (done ++ [x]) (g ++ [x]) t o) as (g' & H1 & H2 & H3).
      { destruct g; discriminate. }
      exists g'. rewrite !map_app in H1. cbn [map] in H1. rewrite <- !app_assoc in H1. cbn [app] in H1.
      rewrite !app_length in H1. rewrite app_length in H2. cbn [length] in H1, H2 |- *.
      replace (S (length done)) with (length done + 1)%nat by lia.
      replace (S (length done + S (length g)))%nat
        with (length done + 1 + (length g + 1))%nat by lia.
      rewrite H1.
      rewrite !map_app. cbn [map]. rewrite <- !app_assoc.
      split; [f_equal; f_equal; lia|]. split; [lia|].
      intros z Hz. specialize (H3 z Hz). rewrite <- app_assoc in H3. cbn in H3 |- *.
      rewrite !in_app_iff in *. cbn in *. tauto.
Qed.

Lemma remove_notin (o : addr) l : ~ In o l -> remove Pos.eq_dec o l = l.
Proof. apply notin_remove. Qed.

Lemma remove_spec l t o :
  exists g,
    std_remove (map Some l ++ t) (length l) o
    = Ok (map Some (remove Pos.eq_dec o l ++ g) ++ t, length (remove Pos.eq_dec o l)) /\
    (length g + length (remove Pos.eq_dec o l) = length l)%nat /\ incl g l.
Proof.
  unfold std_remove.
  destruct (find_spec l [] t o) as [[H1 H2]|(l1 & l2 & H1 & H2 & H3)]; cbn [app length Nat.add] in *.
  - rewrite H2. cbn [bind]. rewrite Nat.eqb_refl. exists []. rewrite remove_notin by exact H1.
    rewrite app_nil_r. split; [reflexivity|]. split; [cbn; lia|]. intros x [].
  - rewrite H3. cbn [bind]. subst l.
    rewrite app_length. cbn [length].
    replace (length l1 =? length l1 + S (length l2))%nat with false by lia.
    replace (length l1 + S (length l2) - S (length l1))%nat with (length l2) by lia.
    destruct (compact_spec l2 l1 [o] t o) as (g & G1 & G2 & G3); [discriminate|].
    exists g. rewrite remove_app, (remove_notin o l1) by exact H2.
    assert (ER : remove Pos.eq_dec o (o :: l2) = remove Pos.eq_dec o l2).
    { cbn. destruct (Pos.eq_dec o o); congruence. }
    rewrite ER.
    rewrite map_app. rewrite <- app_assoc.
    cbn [map app length] in G1 |- *.
    replace (S (length l1)) with (length l1 + 1)%nat by lia.
    rewrite G1. rewrite !map_app, <- !app_assoc, app_length.
    split; [reflexivity|]. split; [cbn in G2; lia|].
    intros z Hz. specialize (G3 z Hz). rewrite in_app_iff. right. exact G3.
Qed.

Lemma remove_length_eq (o : addr) l :
  length (remove Pos.eq_dec o l) = length l <-> ~ In o l.
Proof.
  split.
  - intros H Hin. pose proof (remove_length_lt Pos.eq_dec l o Hin). lia.
  - intros H. rewrite remove_notin by exact H. reflexivity.
Qed.

(** ** The two members on a representation *)
Lemma add_repr Max l t o :
  length (map (@Some addr) l ++ t) = max_observers Max ->
  exists t',
    add_observer Max (map Some l ++ t) (length l) o
    = Ok (map Some (match add_answer (max_observers Max) l o with ok => l ++ [o] | _ => l end) ++ t',
          length (match add_answer (max_observers Max) l o with ok => l ++ [o] | _ => l end),
          add_answer (max_observers Max) l o) /\
    (add_answer (max_observers Max) l o = ok -> exists x, t = x :: t') /\
    (add_answer (max_observers Max) l o <> ok -> t = t').
Proof.
  intros HL. unfold add_observer, add_answer.
  rewrite app_length, map_length in HL.
  destruct (max_observers Max <=? length l)%nat eqn:E.
  { exists t. split; [reflexivity|]. split; [discriminate|reflexivity]. }
  pose proof (contains_spec l [] t o) as EC. cbn [app length] in EC. rewrite EC. cbn [bind].
  destruct (in_dec Pos.eq_dec o l) as [H|H]; cbn [negb].
  - exists t. split; [reflexivity|]. split; [discriminate|reflexivity].
  - destruct t as [|x t]; [cbn in HL; lia|].
    exists t. rewrite <- (map_length (@Some addr) l) at 1. rewrite put_app. cbn [bind].
    rewrite map_app, app_length. cbn [map length]. rewrite <- app_assoc.
    split; [cbn; f_equal; f_equal; f_equal; lia|].
    split; [intros _; exists x; reflexivity|]. congruence.
Qed.

Lemma remove_repr Max l t o :
  (length l <= max_observers Max)%nat ->
  exists g,
    remove_observer Max (map Some l ++ t) (length l) o
    = Ok (map Some (remove Pos.eq_dec o l ++ g) ++ t, length (remove Pos.eq_dec o l),
          remove_answer l o) /\
    (length g + length (remove Pos.eq_dec o l) = length l)%nat /\ incl g l.
Proof.
  intros HL. unfold remove_observer, remove_answer.
  replace (max_observers Max <? length l)%nat with false by lia.
  destruct l as [|x l].
  { cbn. exists []. split; [reflexivity|]. split; [reflexivity|]. intros x []. }
  replace (length (x :: l) =? 0)%nat with false by (cbn; reflexivity).
  destruct (remove_spec (x :: l) t o) as (g & G1 & G2 & G3).
  rewrite G1. cbn [bind].
  exists g. split; [|split; [exact G2|exact G3]].
  destruct (in_dec Pos.eq_dec o (x :: l)) as [H|H].
  - pose proof (remove_length_lt Pos.eq_dec (x :: l) o H).
    replace (length (x :: l) - length (remove Pos.eq_dec o (x :: l)) =? 0)%nat with false by lia.
    reflexivity.
  - pose proof (proj2 (remove_length_eq o (x :: l)) H) as EL.
    rewrite EL, Nat.sub_diag. cbn [negb Nat.eqb]. reflexivity.
Qed.
