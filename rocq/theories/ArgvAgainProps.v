(** C137: one parser used several times. *)
From Verif Require Import ArgvAgainProofs ArgvProps.

(** Any number of vectors can be parsed one after the other. *)
Theorem C137_parses_again D (dbl : string -> option D) args o vs :
  short vs -> exists r, parses dbl args o vs r /\ List.length r = List.length vs.
Proof.
  intros S. destruct (parses_exist dbl args vs S o) as (r & P). exists r. split; [exact P|].
  clear S. revert o r P. induction vs as [|v vs IH]; intros o [|o' r] P; cbn in *; try reflexivity; try contradiction.
  f_equal. apply (IH o' r), P.
Qed.

(** What the last call returns: the last occurrence in all the vectors counts, and a flag is up if
    it was named in any of them: nothing is reset between the calls. *)
Theorem C137_nothing_is_reset D (dbl : string -> option D) args o vs r o' m :
  short vs -> parses dbl args o vs (r ++ [o']) ->
  last_given_in extract_string args vs (PStr m) (o_str o m) (o_str o' m) /\
  last_given_in extract_int args vs (PInt m) (o_int o m) (o_int o' m) /\
  last_given_in dbl args vs (PDbl m) (o_dbl o m) (o_dbl o' m) /\
  (o_bool o' m = true <-> o_bool o m = true \/ exists v j, In v vs /\ names args v (PBool m) j).
Proof.
  intros S. revert o r. induction S as [|v vs L S IH]; intros o r P; [destruct r; destruct P|].
  destruct (parse_ok D dbl args v o L) as (x & E & V). destruct (V m) as (V1 & V2 & V3 & V4).
  destruct r as [|y r].
  - destruct P as [E' P]. destruct vs; [|destruct P]. rewrite E in E'. inversion E'; subst o'.
    assert (Z : forall A (conv : string -> option A) p a b, last_given conv args v p a b -> last_given_in conv args [v] p a b).
    { intros A conv p a b H. apply (last_given_cons conv args [] v p a b b H). right. split; [constructor|reflexivity]. }
    repeat split; try (apply Z; assumption).
    + intros H. apply V4 in H. destruct H as [H|(j & H)]; [left; exact H|right; exists v, j; split; [left; reflexivity|exact H]].
    + intros [H|(w & j & [->|[]] & H)]; apply V4; [left; exact H|right; exists j; exact H].
  - destruct P as [E' P]. rewrite E in E'. inversion E'; subst y. destruct (IH x r P) as (I1 & I2 & I3 & I4).
    split; [exact (last_given_cons _ _ _ _ _ _ _ _ V1 I1)|].
    split; [exact (last_given_cons _ _ _ _ _ _ _ _ V2 I2)|].
    split; [exact (last_given_cons _ _ _ _ _ _ _ _ V3 I3)|].
    rewrite I4, V4. split.
    + intros [[H|(j & H)]|(w & j & I & H)]; [tauto|right; exists v, j; split; [left; reflexivity|exact H]|].
      right. exists w, j. split; [right; exact I|exact H].
    + intros [H|(w & j & [->|I] & H)]; [tauto|left; right; exists j; exact H|right; exists w, j; split; assumption].
Qed.

(** The same vector a second time changes nothing. *)
Theorem C137_same_again D (dbl : string -> option D) args v (o o1 o2 : opts D) :
  Z.of_nat (List.length v) <= 2 ^ 31 - 1 ->
  parses dbl args o [v; v] [o1; o2] -> same_opts o1 o2.
Proof.
  intros L (E1 & E2 & _) m.
  destruct (parse_ok D dbl args v o L) as (x & Ex & V). rewrite E1 in Ex. inversion Ex; subst x.
  destruct (parse_ok D dbl args v o1 L) as (y & Ey & W). rewrite E2 in Ey. inversion Ey; subst y.
  destruct (V m) as (V1 & V2 & V3 & V4). destruct (W m) as (W1 & W2 & W3 & W4).
  split; [symmetry; exact (last_given_again _ _ _ _ _ _ _ V1 W1)|].
  split; [symmetry; exact (last_given_again _ _ _ _ _ _ _ V2 W2)|].
  split; [symmetry; exact (last_given_again _ _ _ _ _ _ _ V3 W3)|].
  apply Bool.eq_iff_eq_true. rewrite W4. split; [tauto|]. intros [H|H]; [exact H|]. apply V4. right. exact H.
Qed.

(** Two vectors one after the other are worth one long vector, unless the first one ends with the
    name of an option that waits for its value. *)
Theorem C137_in_pieces D (dbl : string -> option D) args v1 v2 (o o1 o2 o3 : opts D) :
  Z.of_nat (List.length (v1 ++ v2)) <= 2 ^ 31 - 1 -> ~ waits args v1 \/ v2 = [] ->
  parses dbl args o [v1; v2] [o1; o2] -> parse D dbl (instance args) (v1 ++ v2) o = Ok o3 ->
  same_opts o2 o3.
Proof.
  intros L W (E1 & E2 & _) E3 m. pose proof L as L'. rewrite app_length in L'.
  destruct (parse_ok D dbl args v1 o ltac:(lia)) as (x & Ex & V). rewrite E1 in Ex. inversion Ex; subst x.
  destruct (parse_ok D dbl args v2 o1 ltac:(lia)) as (y & Ey & U). rewrite E2 in Ey. inversion Ey; subst y.
  destruct (parse_ok D dbl args (v1 ++ v2) o L) as (z & Ez & T). rewrite E3 in Ez. inversion Ez; subst z.
  destruct (V m) as (V1 & V2 & V3 & V4). destruct (U m) as (U1 & U2 & U3 & U4). destruct (T m) as (T1 & T2 & T3 & T4).
  assert (NB1 : forall k, PStr m <> PBool k) by discriminate.
  assert (NB2 : forall k, PInt m <> PBool k) by discriminate.
  assert (NB3 : forall k, PDbl m <> PBool k) by discriminate.
  split; [exact (last_given_fun _ args _ args _ _ _ _ ltac:(tauto) (last_given_join _ _ _ _ _ _ _ _ NB1 W V1 U1) T1)|].
  split; [exact (last_given_fun _ args _ args _ _ _ _ ltac:(tauto) (last_given_join _ _ _ _ _ _ _ _ NB2 W V2 U2) T2)|].
  split; [exact (last_given_fun _ args _ args _ _ _ _ ltac:(tauto) (last_given_join _ _ _ _ _ _ _ _ NB3 W V3 U3) T3)|].
  apply Bool.eq_iff_eq_true. rewrite U4, V4, T4, names_join. tauto.
Qed.

Definition shown (o : opts Z) := (o_int o 0%nat, o_int o 1%nat, o_str o 0%nat, o_bool o 0%nat).
Definition ok_shown (r : res (opts Z)) := match r with Ok o => Some (shown o) | _ => None end.
Definition after (r : res (opts Z)) v := match r with Ok o => parse Z (fun _ => None) (instance demo_args) v o | _ => r end.
(** The flag and the name stay from the first vector; --y, at the end of the first, gets nothing in
    pieces and 5 in one. *)
Example C137_ex :
  let first := parse Z (fun _ => None) (instance demo_args) ["p"; "--x"; "3"; "--name"; "bob"; "-v"; "--y"] demo_opts in
  ok_shown first = Some (3, 7, "bob", true) /\
  ok_shown (after first ["5"; "--x"; "4"]) = Some (4, 7, "bob", true) /\
  ok_shown (parse Z (fun _ => None) (instance demo_args)
    ["p"; "--x"; "3"; "--name"; "bob"; "-v"; "--y"; "5"; "--x"; "4"] demo_opts) = Some (4, 5, "bob", true).
Proof. vm_compute. repeat split; reflexivity. Qed.
Example C137_ex_waits :
  waits demo_args ["p"; "-v"; "--y"] /\ ~ waits demo_args ["p"; "--y"; "-v"].
Proof.
  split; [exists ["p"; "-v"], "--y", (PInt 1); repeat split; intros; discriminate|].
  intros (v' & a & p & E & B & N). change (["p"; "--y"; "-v"]) with (["p"; "--y"] ++ ["-v"]) in E.
  apply app_inj_tail in E. destruct E as [_ <-]. cbn in B. inversion B; subst p. apply (N 0%nat). reflexivity.
Qed.

Print Assumptions C137_parses_again.
Print Assumptions C137_nothing_is_reset.
Print Assumptions C137_same_again.
Print Assumptions C137_in_pieces.
