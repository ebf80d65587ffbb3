(** Vocabulary for one parser used several times. *)
From Verif Require Export ArgvSpec.

(** One parser object parses one argument vector after another; [r] are the option objects
    the calls return.  The options live in the parser (argv_parser.hpp:15: it derives from Opts),
    so each call starts from what the call before left, and returns a copy (40). *)
Fixpoint parses {D} (dbl : string -> option D) args (o : opts D) (vs : list (list string)) (r : list (opts D)) : Prop :=
  match vs, r with
  | [], [] => True
  | v :: vs', o' :: r' => parse D dbl (instance args) v o = Ok o' /\ parses dbl args o' vs' r'
  | _, _ => False
  end.

(** The vectors are as short as an [int] argc demands. *)
Definition short (vs : list (list string)) : Prop := Forall (fun v => Z.of_nat (List.length v) <= 2 ^ 31 - 1) vs.

(** Nothing in vector [v] sets [p] (after position [j], in the second). *)
Definition silent {A} (conv : string -> option A) args p (v : list string) : Prop :=
  forall j s, gives args v p j s -> conv s = None.
Definition silent_after {A} (conv : string -> option A) args p (v : list string) (j : nat) : Prop :=
  forall j' s, gives args v p j' s -> (j < j')%nat -> conv s = None.

(** [x] is what the last of all occurrences of [p], in whichever vector, gives; [old] if
    there is none. *)
Definition last_given_in {A} (conv : string -> option A) args (vs : list (list string)) p (old x : A) : Prop :=
  (exists before v after j s, vs = before ++ v :: after /\ gives args v p j s /\ conv s = Some x /\
     silent_after conv args p v j /\ Forall (silent conv args p) after) \/
  (Forall (silent conv args p) vs /\ x = old).

(** The same values everywhere. *)
Definition same_opts {D} (o o' : opts D) : Prop :=
  forall m, o_str o m = o_str o' m /\ o_int o m = o_int o' m /\ o_dbl o m = o_dbl o' m /\ o_bool o m = o_bool o' m.

(** The last argument of [v] is the name of an option that takes a value. *)
Definition waits args (v : list string) : Prop :=
  exists v' a p, v = v' ++ [a] /\ bound args a = Some p /\ forall m, p <> PBool m.
