(** Properties C50-C56: argv_parser. *)
From Verif Require Import ArgvProofs.
From Coq Require Import Permutation.

(** C50.  argc is an int, so there are at most INT_MAX arguments. *)
Theorem C50_last_occurrence_wins D dbl args argv (o o' : opts D) m :
  Z.of_nat (List.length argv) <= 2 ^ 31 - 1 -> parse D dbl (instance args) argv o = Ok o' ->
  last_given extract_string args argv (PStr m) (o_str o m) (o_str o' m) /\
  last_given extract_int args argv (PInt m) (o_int o m) (o_int o' m) /\
  last_given dbl args argv (PDbl m) (o_dbl o m) (o_dbl o' m).
Proof.
  intros L E. destruct (parse_ok D dbl args argv o L) as (x & Ex & V). rewrite E in Ex. inversion Ex; subst x.
  destruct (V m) as (V1 & V2 & V3 & _). tauto.
Qed.
Definition demo_opts : opts Z := Opts (fun _ => "") (fun _ => 7) (fun _ => 0) (fun _ => false).
Definition demo_args : list (string * param) := [("--x", PInt 0); ("--y", PInt 1); ("--name", PStr 0); ("-v", PBool 0)].
Example C50_example :
  match parse Z (fun _ => None) (instance demo_args)
          ["prog"; "--x"; "12"; "--name"; "bob"; "--x"; " "; "--y"; "-v"; "--x"] demo_opts with
  | Ok o => (o_int o 0%nat, o_int o 1%nat, o_str o 0%nat, o_bool o 0%nat) = (12, 0, "bob", true)
  | _ => False
  end.
Proof. vm_compute. reflexivity. Qed.

(** Never named: unchanged. *)
Theorem C50_unnamed_unchanged D dbl args argv (o o' : opts D) m :
  Z.of_nat (List.length argv) <= 2 ^ 31 - 1 -> parse D dbl (instance args) argv o = Ok o' ->
  ((forall j, ~ names args argv (PStr m) j) -> o_str o' m = o_str o m) /\
  ((forall j, ~ names args argv (PInt m) j) -> o_int o' m = o_int o m) /\
  ((forall j, ~ names args argv (PDbl m) j) -> o_dbl o' m = o_dbl o m).
Proof.
  intros L E. destruct (C50_last_occurrence_wins D dbl args argv o o' m L E) as (H1 & H2 & H3).
  repeat split; intros N.
  - destruct H1 as [(j & s & [G _] & _)|[_ H]]; [exfalso; exact (N j G)|exact H].
  - destruct H2 as [(j & s & [G _] & _)|[_ H]]; [exfalso; exact (N j G)|exact H].
  - destruct H3 as [(j & s & [G _] & _)|[_ H]]; [exfalso; exact (N j G)|exact H].
Qed.

(** C51. *)
Theorem C51_flag_iff_present D dbl args argv (o o' : opts D) m :
  Z.of_nat (List.length argv) <= 2 ^ 31 - 1 -> parse D dbl (instance args) argv o = Ok o' ->
  (o_bool o' m = true <-> o_bool o m = true \/ exists j, names args argv (PBool m) j).
Proof.
  intros L E. destruct (parse_ok D dbl args argv o L) as (x & Ex & V). rewrite E in Ex. inversion Ex; subst x.
  apply (V m).
Qed.
(** The argument after a flag still counts as an option name, and a flag named as the value
    of another option still counts. *)
Example C51_example :
  match parse Z (fun _ => None) (instance demo_args) ["-v"; "--x"; "3"; "--name"; "-v"] demo_opts,
        parse Z (fun _ => None) (instance demo_args) ["--name"; "-v"] demo_opts with
  | Ok o, Ok o2 => (o_int o 0%nat, o_bool o 0%nat, o_str o2 0%nat, o_bool o2 0%nat) = (3, true, "-v", true)
  | _, _ => False
  end.
Proof. vm_compute. reflexivity. Qed.

(** C52. *)
Theorem C52_registration_order D dbl args args' argv (o o1 o2 : opts D) :
  Z.of_nat (List.length argv) <= 2 ^ 31 - 1 -> NoDup (map fst args) -> Permutation args args' ->
  parse D dbl (instance args) argv o = Ok o1 -> parse D dbl (instance args') argv o = Ok o2 ->
  forall m, o_str o1 m = o_str o2 m /\ o_int o1 m = o_int o2 m /\ o_dbl o1 m = o_dbl o2 m /\ o_bool o1 m = o_bool o2 m.
Proof.
  intros L ND PM E1 E2 m.
  assert (BI : forall l n p, NoDup (map fst l) -> (bound l n = Some p <-> In (n, p) l)).
  { clear. induction l as [|[k q] l IH]; intros n p ND; cbn [bound In]; [split; [discriminate|tauto]|].
    cbn [map fst] in ND. inversion ND as [|? ? NI ND']; subst.
    assert (IN : forall r, bound l n = Some r -> In n (map fst l)).
    { intros r H. apply (IH n r ND') in H. change n with (fst (n, r)). apply in_map, H. }
    destruct (bound l n) as [r|] eqn:E.
    - split.
      + intros H. right. apply (IH n p ND'). rewrite E. exact H.
      + intros [H|H]; [inversion H; subst; exfalso; apply NI, (IN r), eq_refl|]. apply (IH n p ND') in H. congruence.
    - destruct (String.eqb_spec k n) as [->|N].
      + split; [intros H; inversion H; left; reflexivity|]. intros [H|H]; [congruence|]. apply (IH n p ND') in H. congruence.
      + split; [discriminate|]. intros [H|H]; [congruence|]. apply (IH n p ND') in H. congruence. }
  assert (ND' : NoDup (map fst args')) by (eapply Permutation_NoDup; [apply Permutation_map, PM|exact ND]).
  assert (EQ : forall p n, bound args n = Some p <-> bound args' n = Some p).
  { intros p n. rewrite !BI by assumption. split; apply Permutation_in; [exact PM|symmetry; exact PM]. }
  destruct (C50_last_occurrence_wins D dbl args argv o o1 m L E1) as (A1 & A2 & A3).
  destruct (C50_last_occurrence_wins D dbl args' argv o o2 m L E2) as (B1 & B2 & B3).
  split; [exact (last_given_fun _ args argv args' _ _ _ _ (EQ _) A1 B1)|].
  split; [exact (last_given_fun _ args argv args' _ _ _ _ (EQ _) A2 B2)|].
  split; [exact (last_given_fun _ args argv args' _ _ _ _ (EQ _) A3 B3)|].
  apply Bool.eq_iff_eq_true.
  rewrite (C51_flag_iff_present D dbl args argv o o1 m L E1), (C51_flag_iff_present D dbl args' argv o o2 m L E2).
  unfold names. split; (intros [H|(j & a & H1 & H2)]; [tauto|right; exists j, a; split; [exact H1|apply EQ, H2]]).
Qed.
Example C52_example :
  match parse Z (fun _ => None) (instance (rev demo_args)) ["--x"; "4"; "-v"; "--y"; "5"] demo_opts with
  | Ok o => (o_int o 0%nat, o_int o 1%nat, o_bool o 0%nat) = (4, 5, true) | _ => False end.
Proof. vm_compute. reflexivity. Qed.

(** C53.  Two tables that agree on which names mean member [m] agree on its value. *)
Theorem C53_other_options_irrelevant D dbl args args' argv (o o1 o2 : opts D) m :
  Z.of_nat (List.length argv) <= 2 ^ 31 - 1 ->
  parse D dbl (instance args) argv o = Ok o1 -> parse D dbl (instance args') argv o = Ok o2 ->
  ((forall n, bound args n = Some (PStr m) <-> bound args' n = Some (PStr m)) -> o_str o1 m = o_str o2 m) /\
  ((forall n, bound args n = Some (PInt m) <-> bound args' n = Some (PInt m)) -> o_int o1 m = o_int o2 m) /\
  ((forall n, bound args n = Some (PDbl m) <-> bound args' n = Some (PDbl m)) -> o_dbl o1 m = o_dbl o2 m) /\
  ((forall n, bound args n = Some (PBool m) <-> bound args' n = Some (PBool m)) -> o_bool o1 m = o_bool o2 m).
Proof.
  intros L E1 E2.
  destruct (C50_last_occurrence_wins D dbl args argv o o1 m L E1) as (A1 & A2 & A3).
  destruct (C50_last_occurrence_wins D dbl args' argv o o2 m L E2) as (B1 & B2 & B3).
  split; [intros EQ; exact (last_given_fun _ args argv args' _ _ _ _ EQ A1 B1)|].
  split; [intros EQ; exact (last_given_fun _ args argv args' _ _ _ _ EQ A2 B2)|].
  split; [intros EQ; exact (last_given_fun _ args argv args' _ _ _ _ EQ A3 B3)|].
  intros EQ. apply Bool.eq_iff_eq_true.
  rewrite (C51_flag_iff_present D dbl args argv o o1 m L E1), (C51_flag_iff_present D dbl args' argv o o2 m L E2).
  unfold names. split; (intros [H|(j & a & H1 & H2)]; [tauto|right; exists j, a; split; [exact H1|apply EQ, H2]]).
Qed.
Example C53_example :
  match parse Z (fun _ => None) (instance [("--x", PInt 0)]) ["--x"; "4"; "-v"; "--y"; "5"] demo_opts,
        parse Z (fun _ => None) (instance demo_args) ["--x"; "4"; "-v"; "--y"; "5"] demo_opts with
  | Ok o, Ok o2 => (o_int o 0%nat, o_int o2 0%nat, o_int o 1%nat, o_int o2 1%nat) = (4, 4, 7, 5) | _, _ => False end.
Proof. vm_compute. reflexivity. Qed.

(** C54.  [decimal n]: the decimal text of [n] (standard library printer). *)
Theorem C54_int_round_trip n : - 2 ^ 31 <= n < 2 ^ 31 -> extract_int (decimal n) = Some n.
Proof.
  intros H. pose proof (extract_decimal "" n "" eq_refl eq_refl) as E. cbn [append] in E.
  assert (A : (decimal n ++ "")%string = decimal n).
  { generalize (decimal n) as s. induction s as [|c s IH]; cbn; [reflexivity|]. rewrite IH. reflexivity. }
  rewrite A in E. rewrite E. f_equal. unfold clamp. lia.
Qed.
(** White space before and anything but a digit after; out of range clamps. *)
Theorem C54_int_clamps pre n rest :
  blank pre = true -> first_char is_digit rest = false ->
  extract_int (pre ++ decimal n ++ rest)%string =
  Some (if n <? - 2 ^ 31 then - 2 ^ 31 else if 2 ^ 31 - 1 <? n then 2 ^ 31 - 1 else n).
Proof.
  intros H1 H2. rewrite blank_model in H1. rewrite extract_decimal by assumption. f_equal. unfold clamp.
  destruct (Z.ltb_spec n (- 2 ^ 31)); [lia|]. destruct (Z.ltb_spec (2 ^ 31 - 1) n); lia.
Qed.
(** The same for any sign and any digits, also with leading zeros. *)
Theorem C54_any_numeral pre sign ds rest :
  blank pre = true -> sign = ""%string \/ sign = "+"%string \/ sign = "-"%string ->
  ds <> ""%string -> all_chars is_digit ds = true -> first_char is_digit rest = false ->
  let n := if String.eqb sign "-" then - numeral ds else numeral ds in
  extract_int (pre ++ sign ++ ds ++ rest)%string =
  Some (if n <? - 2 ^ 31 then - 2 ^ 31 else if 2 ^ 31 - 1 <? n then 2 ^ 31 - 1 else n).
Proof.
  intros H1 S N A R n. rewrite blank_model in H1. rewrite (extract_numeral pre sign ds rest H1 S N A R). fold n. f_equal. unfold clamp.
  destruct (Z.ltb_spec n (- 2 ^ 31)); [lia|]. destruct (Z.ltb_spec (2 ^ 31 - 1) n); lia.
Qed.
Theorem C54_no_number_gives_zero pre c r :
  blank pre = true -> white c = false ->
  (if (c =? "-")%char || (c =? "+")%char then first_char is_digit r = false else is_digit c = false) ->
  extract_int (pre ++ String c r)%string = Some 0.
Proof. rewrite blank_model, <- is_space_white. apply extract_junk. Qed.
Theorem C54_blank_unchanged s : blank s = true -> extract_int s = None.
Proof. rewrite blank_model. intros H. unfold extract_int. rewrite skip_blank_all by exact H. reflexivity. Qed.
Example C54_ex_zeros : extract_int " +0042;" = Some 42 /\ numeral "0042" = 42 /\ all_chars is_digit "0042" = true.
Proof. repeat split; reflexivity. Qed.
Example C54_example :
  (extract_int "-2147483648", extract_int " +99999999999999999999x", extract_int "0x10", extract_int "- 5", decimal (-42))
  = (Some (-2147483648), Some 2147483647, Some 0, Some 0, "-42").
Proof. reflexivity. Qed.

(** C55. *)
Theorem C55_first_word pre word rest :
  blank pre = true -> no_space word = true -> word <> ""%string ->
  (rest = ""%string \/ first_char white rest = true) ->
  extract_string (pre ++ word ++ rest)%string = Some word.
Proof.
  rewrite blank_model, no_space_model, first_white. intros H1 H2 H3 H4. unfold extract_string. rewrite skip_blank by exact H1.
  destruct word as [|c w]; [congruence|]. cbn [append].
  pose proof H2 as H2'. cbn in H2'. apply andb_true_iff in H2'. destruct H2' as [HC _]. apply negb_true_iff in HC.
  rewrite skip_none by exact HC. f_equal. exact (take_word_app (String c w) rest H2 H4).
Qed.
Theorem C55_verbatim_without_space s : no_space s = true -> s <> ""%string -> extract_string s = Some s.
Proof.
  intros H1 H2. pose proof (C55_first_word "" s "" eq_refl H1 H2 (or_introl eq_refl)) as E. cbn [append] in E.
  assert (A : (s ++ "")%string = s) by (clear; induction s as [|c s IH]; cbn; [reflexivity|]; rewrite IH; reflexivity).
  rewrite A in E. exact E.
Qed.
Theorem C55_blank_unchanged s : blank s = true -> extract_string s = None.
Proof. rewrite blank_model. intros H. unfold extract_string. rewrite skip_blank_all by exact H. reflexivity. Qed.
(** Hence an argument with an inner or leading blank is never stored as it is. *)
Theorem C55_verbatim_refuted s x : extract_string s = Some x -> no_space s = false -> x <> s.
Proof.
  rewrite no_space_model. intros E N ->. unfold extract_string in E. destruct (skip_space s) as [|c r] eqn:K; [discriminate|].
  assert (H : take_word (String c r) = s) by congruence. clear E.
  assert (G : forall t, all_chars (fun c => negb (is_space c)) (take_word t) = true).
  { induction t as [|d t IH]; [reflexivity|]. cbn [take_word]. destruct (is_space d) eqn:ED; [reflexivity|].
    cbn. rewrite ED. exact IH. }
  rewrite <- H, G in N. discriminate.
Qed.
Example C55_example :
  (extract_string "John Smith", extract_string "  John", extract_string "a=b;c", extract_string "") =
  (Some "John", Some "John", Some "a=b;c", None).
Proof. reflexivity. Qed.

(** C56.  [parse] uses unchecked indexing and would be [UB] outside the vector. *)
Theorem C56_never_past_argv D dbl args argv (o : opts D) :
  Z.of_nat (List.length argv) <= 2 ^ 31 - 1 -> exists o', parse D dbl (instance args) argv o = Ok o'.
Proof. intros L. destruct (parse_ok D dbl args argv o L) as (o' & E & _). exists o'. exact E. Qed.
Example C56_example :
  match parse Z (fun _ => None) (instance demo_args) ["--x"] demo_opts,
        parse Z (fun _ => None) (instance demo_args) [] demo_opts with
  | Ok o, Ok o2 => (o_int o 0%nat, o_int o2 0%nat) = (7, 7) | _, _ => False end.
Proof. vm_compute. reflexivity. Qed.

Print Assumptions C50_last_occurrence_wins.
Print Assumptions C50_unnamed_unchanged.
Print Assumptions C51_flag_iff_present.
Print Assumptions C52_registration_order.
Print Assumptions C53_other_options_irrelevant.
Print Assumptions C54_int_round_trip.
Print Assumptions C54_int_clamps.
Print Assumptions C54_any_numeral.
Print Assumptions C54_no_number_gives_zero.
Print Assumptions C54_blank_unchanged.
Print Assumptions C55_first_word.
Print Assumptions C55_verbatim_without_space.
Print Assumptions C55_blank_unchanged.
Print Assumptions C55_verbatim_refuted.
Print Assumptions C56_never_past_argv.
