(** Lemmas for the argv_parser properties. *)
From Coq Require Import DecimalFacts DecimalPos DecimalN.
From Verif Require Export ArgvSpec.

(** ** the callback map *)
Fixpoint mget (m : cbmap) (name : string) : option param :=
  match m with
  | [] => None
  | (n, p) :: r => if String.eqb n name then Some p else mget r name
  end.
Definition keys (m : cbmap) : list string := map fst m.

Lemma insert_keys m n p x : In x (keys (map_insert m n p)) <-> x = n \/ In x (keys m).
Proof.
  induction m as [|[k q] m IH]; cbn [map_insert]; [cbn; intuition congruence|].
  destruct (str_lt n k); cbn [keys map fst In] in *; [intuition congruence|].
  unfold keys in IH. rewrite IH. intuition congruence.
Qed.
Lemma insert_nodup m n p : ~ In n (keys m) -> NoDup (keys m) -> NoDup (keys (map_insert m n p)).
Proof.
  induction m as [|[k q] m IH]; intros N H; cbn [map_insert].
  - constructor; [intros []|constructor].
  - destruct (str_lt n k).
    + constructor; [exact N|exact H].
    + cbn [keys map fst] in *. inversion H; subst. constructor.
      * fold (keys (map_insert m n p)). rewrite insert_keys. intros [->|Hin]; [apply N; left; reflexivity|contradiction].
      * apply IH; [intros Hin; apply N; right; exact Hin|assumption].
Qed.
Lemma insert_get m n p x : ~ In n (keys m) ->
  mget (map_insert m n p) x = if String.eqb n x then Some p else mget m x.
Proof.
  induction m as [|[k q] m IH]; intros N; cbn [map_insert].
  - reflexivity.
  - destruct (str_lt n k); [reflexivity|]. cbn [mget]. rewrite IH by (intros H; apply N; right; exact H).
    destruct (String.eqb_spec k x) as [->|NK]; [|reflexivity].
    destruct (String.eqb_spec n x) as [->|NX]; [|reflexivity]. exfalso. apply N. left. reflexivity.
Qed.
Lemma filter_keys m n : ~ In n (keys (filter (fun e => negb (String.eqb (fst e) n)) m)).
Proof.
  unfold keys. rewrite in_map_iff. intros ([k q] & E & H). apply filter_In in H. cbn in *. subst k.
  rewrite String.eqb_refl in H. destruct H; discriminate.
Qed.
Lemma filter_nodup m n : NoDup (keys m) -> NoDup (keys (filter (fun e => negb (String.eqb (fst e) n)) m)).
Proof.
  induction m as [|[k q] m IH]; intros H; [constructor|]. cbn [filter fst keys map] in *. inversion H; subst.
  destruct (negb (String.eqb k n)); [|apply IH; assumption]. cbn [keys map fst]. constructor; [|apply IH; assumption].
  intros Hin. apply H2. apply in_map_iff in Hin. destruct Hin as (e & <- & He). apply filter_In in He.
  apply in_map, He.
Qed.
Lemma filter_get m n x : x <> n -> mget (filter (fun e => negb (String.eqb (fst e) n)) m) x = mget m x.
Proof.
  intros N. induction m as [|[k q] m IH]; [reflexivity|]. cbn [filter fst mget].
  destruct (String.eqb_spec k n) as [->|NK]; cbn [negb mget].
  - destruct (String.eqb_spec n x); [congruence|exact IH].
  - destruct (String.eqb k x); [reflexivity|exact IH].
Qed.
Lemma set_nodup m n p : NoDup (keys m) -> NoDup (keys (map_set m n p)).
Proof. intros H. apply insert_nodup; [apply filter_keys|apply filter_nodup, H]. Qed.
Lemma set_get m n p x : mget (map_set m n p) x = if String.eqb n x then Some p else mget m x.
Proof.
  unfold map_set. rewrite insert_get by apply filter_keys.
  destruct (String.eqb_spec n x); [reflexivity|]. apply filter_get. congruence.
Qed.

Lemma instance_from args : forall m,
  (NoDup (keys m) -> NoDup (keys (fold_left (fun m a => map_set m (fst a) (snd a)) args m))) /\
  forall x, mget (fold_left (fun m a => map_set m (fst a) (snd a)) args m) x =
            match bound args x with Some p => Some p | None => mget m x end.
Proof.
  induction args as [|[n p] args IH]; intros m; [split; [tauto|reflexivity]|].
  cbn [fold_left fst snd bound]. destruct (IH (map_set m n p)) as [H1 H2]. split.
  - intros H. apply H1, set_nodup, H.
  - intros x. rewrite H2, set_get. destruct (bound args x); [reflexivity|]. destruct (String.eqb n x); reflexivity.
Qed.
Lemma instance_nodup args : NoDup (keys (instance args)).
Proof. apply (instance_from args []). constructor. Qed.
Lemma instance_get args x : mget (instance args) x = bound args x.
Proof. unfold instance. rewrite (proj2 (instance_from args [])). cbn. destruct (bound args x); reflexivity. Qed.

(** ** one position *)
Section Parse.
  Variable D : Type.
  Variable dbl : string -> option D.
  Notation callback := (callback D dbl).
  Notation each_cb := (each_cb D dbl).
  Notation parse_from := (parse_from D dbl).

  Lemma each_cb_get argv k a o : nth_error argv k = Some a ->
    forall m, NoDup (keys m) ->
    each_cb m (Z.of_nat k) argv o =
    match mget m a with Some p => callback a p (Z.of_nat k) argv o | None => Ok o end.
  Proof.
    intros E.
    assert (AT : arg_at argv (Z.of_nat k) = Ok a).
    { unfold arg_at. destruct (Z.ltb_spec (Z.of_nat k) 0); [lia|]. rewrite Nat2Z.id, E. reflexivity. }
    assert (SKIP : forall m o, ~ In a (keys m) -> each_cb m (Z.of_nat k) argv o = Ok o).
    { induction m as [|[n p] m IH]; intros o' N; cbn [ArgvModel.each_cb]; [reflexivity|].
      unfold ArgvModel.callback at 1. rewrite AT. cbn [bind].
      destruct (String.eqb_spec a n) as [->|NE]; [exfalso; apply N; left; reflexivity|]. cbn [bind].
      apply IH. intros H. apply N. right. exact H. }
    induction m as [|[n p] m IH]; intros ND; [reflexivity|].
    cbn [keys map fst] in ND. inversion ND; subst. cbn [ArgvModel.each_cb mget].
    destruct (String.eqb_spec n a) as [->|NE].
    - destruct (callback a p (Z.of_nat k) argv o) as [o'| |]; cbn [bind]; try reflexivity. apply SKIP. assumption.
    - unfold ArgvModel.callback at 1. rewrite AT. cbn [bind]. destruct (String.eqb_spec a n); [congruence|].
      cbn [bind]. apply IH. assumption.
  Qed.

  (** The value of a member after one position. *)
  Definition upd_val {A} (conv : string -> option A) (is_p : bool) (nxt : option string) (old : A) : A :=
    if is_p then match nxt with Some s => match conv s with Some x => x | None => old end | None => old end else old.
  Definition is_str (m : nat) (p : option param) : bool := match p with Some (PStr k) => (m =? k)%nat | _ => false end.
  Definition is_int (m : nat) (p : option param) : bool := match p with Some (PInt k) => (m =? k)%nat | _ => false end.
  Definition is_dbl (m : nat) (p : option param) : bool := match p with Some (PDbl k) => (m =? k)%nat | _ => false end.
  Definition is_bool (m : nat) (p : option param) : bool := match p with Some (PBool k) => (m =? k)%nat | _ => false end.

  Definition step_vals (o o' : opts D) (p : option param) (nxt : option string) : Prop :=
    forall m,
      o_str o' m = upd_val extract_string (is_str m p) nxt (o_str o m) /\
      o_int o' m = upd_val extract_int (is_int m p) nxt (o_int o m) /\
      o_dbl o' m = upd_val dbl (is_dbl m p) nxt (o_dbl o m) /\
      o_bool o' m = orb (o_bool o m) (is_bool m p).

  Lemma step_vals_refl o p nxt : (p = None \/ (nxt = None /\ forall m, p <> Some (PBool m))) -> step_vals o o p nxt.
  Proof.
    intros H m. destruct H as [->|[-> H]]; cbn.
    - rewrite orb_false_r. tauto.
    - unfold upd_val. destruct (is_str m p), (is_int m p), (is_dbl m p), (is_bool m p) eqn:E; rewrite ?orb_false_r; try tauto;
      exfalso; destruct p as [[| | |k]|]; try discriminate; apply (H k); reflexivity.
  Qed.

  Lemma step_ok args argv k a o : Z.of_nat (List.length argv) <= 2 ^ 31 - 1 ->
    nth_error argv k = Some a ->
    exists o', each_cb (instance args) (Z.of_nat k) argv o = Ok o' /\
               step_vals o o' (bound args a) (nth_error argv (S k)).
  Proof.
    intros L E. rewrite (each_cb_get argv k a o E _ (instance_nodup args)), instance_get.
    destruct (bound args a) as [p|] eqn:EB; [|exists o; split; [reflexivity|apply step_vals_refl; tauto]].
    assert (LK : (k < List.length argv)%nat) by (apply nth_error_Some; congruence).
    unfold ArgvModel.callback. unfold arg_at at 1. destruct (Z.ltb_spec (Z.of_nat k) 0); [lia|].
    rewrite Nat2Z.id, E. cbn [bind]. rewrite String.eqb_refl.
    assert (TI : to_int (u64 (Z.of_nat (List.length argv) - 1)) = Z.of_nat (List.length argv) - 1).
    { rewrite u64_id by (rewrite W64_val; lia). unfold to_int. rewrite Z.mod_small by lia. lia. }
    rewrite TI.
    assert (GEN : forall q, (forall m, q <> PBool m) ->
      exists o', (if Z.of_nat k <? Z.of_nat (List.length argv) - 1
                  then v <- arg_at argv (Z.of_nat k + 1) ;; Ok (extract D dbl o q v) else Ok o) = Ok o' /\
                 step_vals o o' (Some q) (nth_error argv (S k))).
    { intros q HQ. destruct (Z.ltb_spec (Z.of_nat k) (Z.of_nat (List.length argv) - 1)) as [LT|GE].
      - assert (LS : (S k < List.length argv)%nat) by lia. apply nth_error_Some in LS.
        destruct (nth_error argv (S k)) as [s|] eqn:ES; [|congruence].
        unfold arg_at. destruct (Z.ltb_spec (Z.of_nat k + 1) 0); [lia|].
        replace (Z.to_nat (Z.of_nat k + 1)) with (S k) by lia. rewrite ES. cbn [bind].
        eexists. split; [reflexivity|]. intros m.
        destruct q as [i|i|i|i]; [| | |exfalso; apply (HQ i); reflexivity]; cbn [extract is_str is_int is_dbl is_bool upd_val];
          rewrite orb_false_r; repeat split; try reflexivity.
        all: try (destruct (extract_string s) eqn:X; cbn [o_str o_int o_dbl o_bool]; unfold set; reflexivity).
        all: try (destruct (extract_int s) eqn:X; cbn [o_str o_int o_dbl o_bool]; unfold set; reflexivity).
        all: try (destruct (dbl s) eqn:X; cbn [o_str o_int o_dbl o_bool]; unfold set; reflexivity).
        all: unfold upd_val.
        + destruct (extract_string s) eqn:X; cbn [o_str]; unfold set; destruct (m =? i)%nat; reflexivity.
        + destruct (extract_int s) eqn:X; cbn [o_int]; unfold set; destruct (m =? i)%nat; reflexivity.
        + destruct (dbl s) eqn:X; cbn [o_dbl]; unfold set; destruct (m =? i)%nat; reflexivity.
      - assert (ES : nth_error argv (S k) = None) by (apply nth_error_None; lia). rewrite ES.
        exists o. split; [reflexivity|]. apply step_vals_refl. right. split; [reflexivity|]. intros m HE. apply (HQ m). congruence. }
    destruct p as [i|i|i|i].
    - apply GEN. discriminate.
    - apply GEN. discriminate.
    - apply GEN. discriminate.
    - eexists. split; [reflexivity|]. intros m. cbn. unfold set. repeat split.
      destruct (m =? i)%nat; destruct (o_bool o m); reflexivity.
  Qed.

  (** ** the whole vector *)
  Definition last_from {A} (conv : string -> option A) args argv p (k : nat) (old x : A) : Prop :=
    (exists j s, (k <= j)%nat /\ gives args argv p j s /\ conv s = Some x /\
       forall j' s', gives args argv p j' s' -> (j < j')%nat -> conv s' = None) \/
    ((forall j s, (k <= j)%nat -> gives args argv p j s -> conv s = None) /\ x = old).

  Lemma last_from_step {A} (conv : string -> option A) args argv p k a (isp : bool) (old mid x : A) :
    nth_error argv k = Some a -> (isp = true <-> bound args a = Some p) ->
    mid = upd_val conv isp (nth_error argv (S k)) old ->
    last_from conv args argv p (S k) mid x -> last_from conv args argv p k old x.
  Proof.
    intros EA IP EM H. destruct H as [(j & s & LJ & G & C & F)|[F ->]].
    - left. exists j, s. split; [lia|]. tauto.
    - subst mid. unfold upd_val. destruct isp.
      + assert (NM : names args argv p k) by (exists a; split; [exact EA|apply IP; reflexivity]).
        destruct (nth_error argv (S k)) as [s|] eqn:ES.
        * destruct (conv s) as [y|] eqn:EC.
          -- left. exists k, s. split; [lia|]. split; [split; [exact NM|exact ES]|]. split; [exact EC|].
             intros j' s' G L. apply (F j' s'); [lia|exact G].
          -- right. split; [|reflexivity]. intros j s' L G. destruct (Nat.eq_dec j k) as [->|N].
             ++ destruct G as [_ G]. congruence.
             ++ apply (F j s'); [lia|exact G].
        * right. split; [|reflexivity]. intros j s' L G. destruct (Nat.eq_dec j k) as [->|N].
          -- destruct G as [_ G]. congruence.
          -- apply (F j s'); [lia|exact G].
      + right. split; [|reflexivity]. intros j s' L G. destruct (Nat.eq_dec j k) as [->|N].
        * destruct G as [(b & Eb & HB) _]. assert (b = a) as -> by congruence. apply IP in HB. discriminate.
        * apply (F j s'); [lia|exact G].
  Qed.

  Lemma parse_from_ok args argv : Z.of_nat (List.length argv) <= 2 ^ 31 - 1 ->
    forall todo k o, (k + todo = List.length argv)%nat ->
    exists o', parse_from (instance args) todo (Z.of_nat k) argv o = Ok o' /\
      forall m,
        last_from extract_string args argv (PStr m) k (o_str o m) (o_str o' m) /\
        last_from extract_int args argv (PInt m) k (o_int o m) (o_int o' m) /\
        last_from dbl args argv (PDbl m) k (o_dbl o m) (o_dbl o' m) /\
        (o_bool o' m = true <-> o_bool o m = true \/ exists j, (k <= j)%nat /\ names args argv (PBool m) j).
  Proof.
    intros L. induction todo as [|todo IH]; intros k o HK; cbn [ArgvModel.parse_from].
    - exists o. split; [reflexivity|]. intros m.
      assert (NO : forall p j, names args argv p j -> (k <= j)%nat -> False).
      { intros p j (a & E & _) LJ. assert (j < List.length argv)%nat by (apply nth_error_Some; congruence). lia. }
      split; [|split; [|split]].
      1-3: right; split; [intros j s LJ [G _]; exfalso; exact (NO _ _ G LJ)|reflexivity].
      split; [tauto|]. intros [H|(j & LJ & G)]; [exact H|exfalso; exact (NO _ _ G LJ)].
    - assert (LK : (k < List.length argv)%nat) by lia. apply nth_error_Some in LK.
      destruct (nth_error argv k) as [a|] eqn:EA; [|congruence].
      destruct (step_ok args argv k a o L EA) as (o1 & E1 & V). rewrite E1. cbn [bind].
      replace (Z.of_nat k + 1) with (Z.of_nat (S k)) by lia.
      destruct (IH (S k) o1 ltac:(lia)) as (o' & E' & V'). exists o'. split; [exact E'|]. intros m.
      destruct (V m) as (V1 & V2 & V3 & V4). destruct (V' m) as (W1 & W2 & W3 & W4).
      assert (IFF : forall m, (is_str m (bound args a) = true <-> bound args a = Some (PStr m)) /\
                              (is_int m (bound args a) = true <-> bound args a = Some (PInt m)) /\
                              (is_dbl m (bound args a) = true <-> bound args a = Some (PDbl m)) /\
                              (is_bool m (bound args a) = true <-> bound args a = Some (PBool m))).
      { intros m0. destruct (bound args a) as [[i|i|i|i]|]; cbn; repeat split; intros HH; try discriminate;
          try (apply Nat.eqb_eq in HH; congruence); try (inversion HH; apply Nat.eqb_refl). }
      destruct (IFF m) as (F1 & F2 & F3 & F4).
      split; [eapply last_from_step; eassumption|]. split; [eapply last_from_step; eassumption|].
      split; [eapply last_from_step; eassumption|].
      rewrite W4, V4, orb_true_iff, F4. split.
      + intros [[H|H]|(j & LJ & G)].
        * left. exact H.
        * right. exists k. split; [lia|]. exists a. tauto.
        * right. exists j. split; [lia|exact G].
      + intros [H|(j & LJ & G)]; [tauto|]. destruct (Nat.eq_dec j k) as [->|N].
        * left. right. destruct G as (b & Eb & HB). congruence.
        * right. exists j. split; [lia|exact G].
  Qed.

  Lemma parse_ok args argv o : Z.of_nat (List.length argv) <= 2 ^ 31 - 1 ->
    exists o', parse D dbl (instance args) argv o = Ok o' /\
      forall m,
        last_given extract_string args argv (PStr m) (o_str o m) (o_str o' m) /\
        last_given extract_int args argv (PInt m) (o_int o m) (o_int o' m) /\
        last_given dbl args argv (PDbl m) (o_dbl o m) (o_dbl o' m) /\
        (o_bool o' m = true <-> o_bool o m = true \/ exists j, names args argv (PBool m) j).
  Proof.
    intros L. destruct (parse_from_ok args argv L (List.length argv) 0 o eq_refl) as (o' & E & V).
    exists o'. split; [exact E|].
    assert (W : forall A (conv : string -> option A) p (old x : A), last_from conv args argv p 0 old x -> last_given conv args argv p old x).
    { intros A conv p old x [(j & s & _ & H)|[F H]]; [left; exists j, s; exact H|right]. split; [|exact H].
      intros j s G. apply (F j s); [lia|exact G]. }
    intros m. destruct (V m) as (V1 & V2 & V3 & V4).
    split; [apply W, V1|]. split; [apply W, V2|]. split; [apply W, V3|].
    rewrite V4. split; (intros [H|H]; [tauto|]).
    - destruct H as (j & _ & G). right. exists j. exact G.
    - destruct H as (j & G). right. exists j. split; [lia|exact G].
  Qed.

  Lemma last_given_fun {A} (conv : string -> option A) args argv args' p (old x y : A) :
    (forall n, bound args n = Some p <-> bound args' n = Some p) ->
    last_given conv args argv p old x -> last_given conv args' argv p old y -> x = y.
  Proof.
    intros EQ.
    assert (G : forall j s, gives args argv p j s <-> gives args' argv p j s).
    { intros j s. unfold gives, names. split; intros ((a & E & HB) & E'); (split; [|exact E']); exists a; (split; [exact E|]); apply EQ, HB. }
    intros [(j & s & G1 & C1 & F1)|[F1 ->]] [(j' & s' & G2 & C2 & F2)|[F2 ->]].
    - destruct (Nat.lt_trichotomy j j') as [L|[->|L]].
      + apply G in G2. specialize (F1 j' s' G2 L). congruence.
      + destruct G1 as [_ E1], G2 as [_ E2]. congruence.
      + apply G in G1. specialize (F2 j s G1 L). congruence.
    - apply G in G1. specialize (F2 j s G1). congruence.
    - apply G in G2. specialize (F1 j' s' G2). congruence.
    - reflexivity.
  Qed.
End Parse.

(** ** strings *)
Lemma skip_blank s : forall t, all_chars is_space s = true -> skip_space (s ++ t) = skip_space t.
Proof.
  induction s as [|c s IH]; intros t H; [reflexivity|]. cbn in H. apply andb_true_iff in H. destruct H as [H1 H2].
  cbn. rewrite H1. apply IH, H2.
Qed.
Lemma skip_blank_all s : all_chars is_space s = true -> skip_space s = EmptyString.
Proof. induction s as [|c s IH]; intros H; [reflexivity|]. cbn in H. apply andb_true_iff in H. cbn. destruct H as [-> H]. apply IH, H. Qed.
Lemma is_space_white c : is_space c = white c.
Proof. destruct c as [[] [] [] [] [] [] [] []]; reflexivity. Qed.
Lemma all_chars_ext f g s : (forall c, f c = g c) -> all_chars f s = all_chars g s.
Proof. intros E. induction s as [|c s IH]; cbn; [reflexivity|]. rewrite E, IH. reflexivity. Qed.
Lemma blank_model s : blank s = all_chars is_space s.
Proof. apply all_chars_ext. intros c. rewrite is_space_white. reflexivity. Qed.
Lemma no_space_model s : no_space s = all_chars (fun c => negb (is_space c)) s.
Proof. apply all_chars_ext. intros c. rewrite is_space_white. reflexivity. Qed.
Lemma first_white s : first_char white s = first_char is_space s.
Proof. destruct s as [|c s]; cbn; [reflexivity|]. rewrite is_space_white. reflexivity. Qed.
Lemma skip_none s : first_char is_space s = false -> skip_space s = s.
Proof. destruct s as [|c s]; intros H; [reflexivity|]. cbn in *. rewrite H. reflexivity. Qed.
Lemma take_word_app w : forall t, all_chars (fun c => negb (is_space c)) w = true -> (t = EmptyString \/ first_char is_space t = true) -> take_word (w ++ t) = w.
Proof.
  induction w as [|c w IH]; intros t H1 H2.
  - cbn. destruct H2 as [->|H2]; [reflexivity|]. destruct t as [|c t]; [reflexivity|]. cbn in *. rewrite H2. reflexivity.
  - cbn in H1. apply andb_true_iff in H1. destruct H1 as [H1 H3]. apply negb_true_iff in H1. cbn. rewrite H1. f_equal.
    apply IH; assumption.
Qed.

(** ** numbers *)
Lemma digit_char c : is_digit c = match digit c with Some _ => true | None => false end.
Proof.
  unfold is_digit, digit. change (nat_of_ascii "0") with 48%nat. change (nat_of_ascii "9") with 57%nat.
  destruct (Nat.leb_spec 48 (nat_of_ascii c)), (Nat.leb_spec (nat_of_ascii c) 57),
    (Z.leb_spec 48 (Z.of_nat (nat_of_ascii c))), (Z.leb_spec (Z.of_nat (nat_of_ascii c)) 57); cbn; try reflexivity; lia.
Qed.

Fixpoint uint_acc (d : Decimal.uint) (acc : Z) : Z :=
  match d with
  | Decimal.Nil => acc
  | Decimal.D0 l => uint_acc l (10 * acc)
  | Decimal.D1 l => uint_acc l (10 * acc + 1)
  | Decimal.D2 l => uint_acc l (10 * acc + 2)
  | Decimal.D3 l => uint_acc l (10 * acc + 3)
  | Decimal.D4 l => uint_acc l (10 * acc + 4)
  | Decimal.D5 l => uint_acc l (10 * acc + 5)
  | Decimal.D6 l => uint_acc l (10 * acc + 6)
  | Decimal.D7 l => uint_acc l (10 * acc + 7)
  | Decimal.D8 l => uint_acc l (10 * acc + 8)
  | Decimal.D9 l => uint_acc l (10 * acc + 9)
  end.

Lemma digits_uint d t : first_char is_digit t = false -> forall acc,
  digits (NilEmpty.string_of_uint d ++ t) acc = uint_acc d acc.
Proof.
  intros HT. induction d as [|d IH|d IH|d IH|d IH|d IH|d IH|d IH|d IH|d IH|d IH]; intros acc;
    cbn [NilEmpty.string_of_uint append digits uint_acc].
  1: { destruct t as [|c t]; [reflexivity|]. cbn in HT |- *. rewrite digit_char in HT. destruct (digit c); [discriminate|reflexivity]. }
  all: match goal with |- context [digit ?c] => let v := eval vm_compute in (digit c) in change (digit c) with v end.
  all: cbv iota beta; rewrite IH; f_equal; lia.
Qed.

Lemma pos_acc d : forall p, Z.pos (Pos.of_uint_acc d p) = uint_acc d (Z.pos p).
Proof.
  induction d as [|d IH|d IH|d IH|d IH|d IH|d IH|d IH|d IH|d IH|d IH]; intros p; cbn [Pos.of_uint_acc uint_acc];
    [reflexivity|rewrite IH; f_equal; lia..].
Qed.
Lemma uint_val d : Z.of_uint d = uint_acc d 0.
Proof.
  unfold Z.of_uint. induction d; cbn [Pos.of_uint uint_acc Z.of_N]; try reflexivity; try (rewrite pos_acc; reflexivity).
  exact IHd.
Qed.

Lemma digits_nilzero d t : first_char is_digit t = false ->
  digits (NilZero.string_of_uint d ++ t)%string 0 = Z.of_uint d.
Proof.
  intros H. rewrite uint_val. destruct d; try exact (digits_uint _ t H 0).
  exact (digits_uint (Decimal.D0 Decimal.Nil) t H 0).
Qed.
Lemma nilzero_first d t : exists c r, (NilZero.string_of_uint d ++ t)%string = String c r /\ is_digit c = true.
Proof. destruct d; cbn; eexists; eexists; (split; [reflexivity|reflexivity]). Qed.

Lemma digit_not c : is_digit c = true -> is_space c = false /\ c <> "-"%char /\ c <> "+"%char.
Proof.
  intros H. unfold is_digit in H. change (nat_of_ascii "0") with 48%nat in H. change (nat_of_ascii "9") with 57%nat in H.
  unfold is_space. split; [|split; intros ->; vm_compute in H; discriminate].
  apply andb_true_iff in H. destruct H as [H1 H2]. apply Nat.leb_le in H1, H2.
  destruct (Nat.eqb_spec (nat_of_ascii c) 32); [lia|]. destruct (Nat.leb_spec (nat_of_ascii c) 13); [lia|].
  rewrite andb_false_r. reflexivity.
Qed.
Lemma get_long_other c r : c <> "-"%char -> c <> "+"%char ->
  get_long (String c r) = clamp (- 2 ^ 63) (2 ^ 63 - 1) (digits (String c r) 0).
Proof.
  intros H1 H2. unfold get_long. f_equal.
  destruct c as [[] [] [] [] [] [] [] []]; try reflexivity; congruence.
Qed.

Lemma get_long_decimal n t : first_char is_digit t = false ->
  get_long (decimal n ++ t)%string = clamp (- 2 ^ 63) (2 ^ 63 - 1) n.
Proof.
  intros H. unfold decimal. pose proof (DecimalZ.of_to n) as E. destruct (Z.to_int n) as [d|d]; cbn [NilZero.string_of_int].
  - cbn [Z.of_int] in E. destruct (nilzero_first d t) as (c & r & EC & HC).
    destruct (digit_not c HC) as (_ & N1 & N2). rewrite EC, (get_long_other c r N1 N2), <- EC, digits_nilzero by exact H.
    rewrite E. reflexivity.
  - cbn [Z.of_int] in E. cbn [append]. unfold get_long. rewrite digits_nilzero by exact H. rewrite E. reflexivity.
Qed.

Lemma extract_decimal pre n t : all_chars is_space pre = true -> first_char is_digit t = false ->
  extract_int (pre ++ decimal n ++ t)%string = Some (clamp (- 2 ^ 31) (2 ^ 31 - 1) n).
Proof.
  intros HB HT. unfold extract_int. rewrite skip_blank by exact HB.
  assert (SK : exists c r, (decimal n ++ t)%string = String c r /\ is_space c = false).
  { unfold decimal. destruct (Z.to_int n) as [d|d]; cbn [NilZero.string_of_int].
    - destruct (nilzero_first d t) as (c & r & EC & HC). exists c, r. split; [exact EC|]. apply (digit_not c HC).
    - eexists. eexists. split; reflexivity. }
  destruct SK as (c & r & EC & HC). rewrite skip_none by (rewrite EC; exact HC).
  rewrite EC. rewrite <- EC, get_long_decimal by exact HT. f_equal. unfold clamp. lia.
Qed.

(** Text that does not start with a number. *)
Lemma extract_junk pre c r : all_chars is_space pre = true -> is_space c = false ->
  (if (c =? "-")%char || (c =? "+")%char then first_char is_digit r = false else is_digit c = false) ->
  extract_int (pre ++ String c r)%string = Some 0.
Proof.
  intros HB HC HJ. unfold extract_int. rewrite skip_blank by exact HB. rewrite skip_none by exact HC.
  assert (Z0 : forall t, first_char is_digit t = false -> digits t 0 = 0).
  { intros [|x t] HX; [reflexivity|]. cbn in HX |- *. rewrite digit_char in HX. destruct (digit x); [discriminate|reflexivity]. }
  f_equal. destruct (Ascii.eqb_spec c "-") as [->|N1]; [|destruct (Ascii.eqb_spec c "+") as [->|N2]]; cbn [orb] in HJ.
  - unfold get_long. rewrite (Z0 r HJ). reflexivity.
  - unfold get_long. rewrite (Z0 r HJ). reflexivity.
  - rewrite (get_long_other c r N1 N2), (Z0 (String c r) HJ). reflexivity.
Qed.

Lemma digits_numeral ds : forall rest acc, all_chars is_digit ds = true -> first_char is_digit rest = false ->
  digits (ds ++ rest) acc = acc * 10 ^ Z.of_nat (String.length ds) + numeral ds.
Proof.
  induction ds as [|c ds IH]; intros rest acc A R.
  - cbn [append String.length numeral]. rewrite Z.pow_0_r. destruct rest as [|c r]; cbn [digits]; [lia|].
    cbn [first_char] in R. rewrite digit_char in R. destruct (digit c); [discriminate|]. lia.
  - cbn [all_chars] in A. apply andb_true_iff in A. destruct A as [A1 A2].
    cbn [append digits String.length numeral]. rewrite digit_char in A1. unfold digit in *.
    destruct ((48 <=? Z.of_nat (nat_of_ascii c)) && (Z.of_nat (nat_of_ascii c) <=? 57)); [|discriminate].
    rewrite (IH rest _ A2 R). rewrite Nat2Z.inj_succ, Z.pow_succ_r by lia. ring.
Qed.
Lemma extract_numeral pre sign ds rest :
  all_chars is_space pre = true -> sign = ""%string \/ sign = "+"%string \/ sign = "-"%string ->
  ds <> ""%string -> all_chars is_digit ds = true -> first_char is_digit rest = false ->
  extract_int (pre ++ sign ++ ds ++ rest)%string =
  Some (clamp (- 2 ^ 31) (2 ^ 31 - 1) (if String.eqb sign "-" then - numeral ds else numeral ds)).
Proof.
  intros P S N A R. unfold extract_int. rewrite skip_blank by exact P.
  assert (DN : forall acc, digits (ds ++ rest) acc = acc * 10 ^ Z.of_nat (String.length ds) + numeral ds)
    by (intros acc; apply digits_numeral; assumption).
  assert (CL : forall x, clamp (- 2 ^ 31) (2 ^ 31 - 1) (clamp (- 2 ^ 63) (2 ^ 63 - 1) x) = clamp (- 2 ^ 31) (2 ^ 31 - 1) x)
    by (intros x; unfold clamp; lia).
  destruct S as [-> | [-> | ->]].
  - change (String.eqb "" "-") with false. cbv iota. change ("" ++ ds ++ rest)%string with (ds ++ rest)%string.
    destruct ds as [|c ds]; [congruence|].
    pose proof A as A'. cbn [all_chars] in A'. apply andb_true_iff in A'. destruct A' as [A1 _].
    destruct (digit_not c A1) as (D1 & D2 & D3).
    change (String c ds ++ rest)%string with (String c (ds ++ rest)) in *.
    rewrite skip_none by exact D1. rewrite get_long_other by assumption. rewrite CL, DN; f_equal; f_equal; lia.
  - change (String.eqb "+" "-") with false. cbv iota. change ("+" ++ ds ++ rest)%string with (String "+" (ds ++ rest)).
    rewrite skip_none by reflexivity. unfold get_long. rewrite CL, DN; f_equal; f_equal; lia.
  - change (String.eqb "-" "-") with true. cbv iota. change ("-" ++ ds ++ rest)%string with (String "-" (ds ++ rest)).
    rewrite skip_none by reflexivity. unfold get_long. rewrite CL, DN; f_equal; f_equal; lia.
Qed.
