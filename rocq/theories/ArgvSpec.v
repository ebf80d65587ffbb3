(** Vocabulary for the argv_parser properties. *)
From Coq Require Export DecimalString DecimalZ.
From Verif Require Export ArgvModel.

(** What a name is bound to: the last registration of the name counts. *)
Fixpoint bound (args : list (string * param)) (name : string) : option param :=
  match args with
  | [] => None
  | (n, p) :: r =>
    match bound r name with
    | Some q => Some q
    | None => if String.eqb n name then Some p else None
    end
  end.

(** Argument [j] names an option bound to [p]; [follows j s]: and [s] comes next. *)
Definition names (args : list (string * param)) (argv : list string) (p : param) (j : nat) : Prop :=
  exists a, nth_error argv j = Some a /\ bound args a = Some p.
Definition gives (args : list (string * param)) (argv : list string) (p : param) (j : nat) (s : string) : Prop :=
  names args argv p j /\ nth_error argv (S j) = Some s.

(** [x] is the conversion given by the last occurrence of [p] that has one; with no such
    occurrence, [x] is the old value. *)
Definition last_given {A} (conv : string -> option A) args argv p (old x : A) : Prop :=
  (exists j s, gives args argv p j s /\ conv s = Some x /\
     forall j' s', gives args argv p j' s' -> (j < j')%nat -> conv s' = None) \/
  ((forall j s, gives args argv p j s -> conv s = None) /\ x = old).

(** Decimal text of a number, from the standard library. *)
Definition decimal (n : Z) : string := NilZero.string_of_int (Z.to_int n).

Fixpoint all_chars (f : ascii -> bool) (s : string) : bool :=
  match s with EmptyString => true | String c r => f c && all_chars f r end.
(** Space, tab, line feed, vertical tab, form feed, carriage return. *)
Definition white (c : ascii) : bool :=
  existsb (Ascii.eqb c) [" "; "009"; "010"; "011"; "012"; "013"]%char.
Definition blank (s : string) : bool := all_chars white s.
Definition no_space (s : string) : bool := all_chars (fun c => negb (white c)) s.
Definition first_char (f : ascii -> bool) (s : string) : bool :=
  match s with EmptyString => false | String c _ => f c end.
Definition is_digit (c : ascii) : bool :=
  ((nat_of_ascii "0" <=? nat_of_ascii c) && (nat_of_ascii c <=? nat_of_ascii "9"))%nat.
(** The number a string of decimal digits stands for; leading zeros are allowed. *)
Fixpoint numeral (s : string) : Z :=
  match s with
  | EmptyString => 0
  | String c r => (Z.of_nat (nat_of_ascii c) - 48) * 10 ^ Z.of_nat (String.length r) + numeral r
  end.
