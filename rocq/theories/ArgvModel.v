(** Model of include/xitren/func/argv_parser.hpp. *)
From Coq Require Export String Ascii.
From Verif Require Export BaseLemmas.
Open Scope string_scope.
Open Scope list_scope.
Open Scope Z_scope.

(** ** stream extraction (argv_parser.hpp:76-78, libstdc++, "C" locale)
    The stream holds the whole argument; [None]: the target is left unchanged. *)
Definition is_space (c : ascii) : bool :=
  let n := nat_of_ascii c in ((n =? 32) || ((9 <=? n) && (n <=? 13)))%nat.
Fixpoint skip_space (s : string) : string :=
  match s with
  | EmptyString => EmptyString
  | String c r => if is_space c then skip_space r else s
  end.
(** >> std::string: a word; nothing happens if there is none. *)
Fixpoint take_word (s : string) : string :=
  match s with
  | EmptyString => EmptyString
  | String c r => if is_space c then EmptyString else String c (take_word r)
  end.
Definition extract_string (s : string) : option string :=
  match skip_space s with EmptyString => None | t => Some (take_word t) end.
(** >> int: num_get reads a long (an optional sign and decimal digits; no digit gives 0;
    overflow gives LONG_MIN or LONG_MAX), which is then clamped to int; nothing happens
    if the text is blank. *)
Definition digit (c : ascii) : option Z :=
  let n := Z.of_nat (nat_of_ascii c) in
  if (48 <=? n) && (n <=? 57) then Some (n - 48) else None.
Fixpoint digits (s : string) (acc : Z) : Z :=
  match s with
  | EmptyString => acc
  | String c r => match digit c with Some d => digits r (10 * acc + d) | None => acc end
  end.
Definition clamp (lo hi x : Z) : Z := Z.max lo (Z.min hi x).
Definition get_long (s : string) : Z :=
  clamp (- 2 ^ 63) (2 ^ 63 - 1)
    match s with
    | String "-" r => - digits r 0
    | String "+" r => digits r 0
    | _ => digits s 0
    end.
Definition extract_int (s : string) : option Z :=
  match skip_space s with EmptyString => None | t => Some (clamp (- 2 ^ 31) (2 ^ 31 - 1) (get_long t)) end.

Section Argv.
  (** Doubles and their extraction are not modelled: any type and any function. *)
  Variable D : Type.
  Variable extract_double : string -> option D.

  (** parameter_type (16): a pointer to a member of one of four types; the members of
      each type are numbered. *)
  Inductive param := PStr (m : nat) | PInt (m : nat) | PDbl (m : nat) | PBool (m : nat).
  (** The Opts base object (15). *)
  Record opts := Opts { o_str : nat -> string; o_int : nat -> Z; o_dbl : nat -> D; o_bool : nat -> bool }.
  Definition set {A} (f : nat -> A) (m : nat) (x : A) : nat -> A := fun k => if (k =? m)%nat then x else f k.

  (** value >> this->*arg (76-78). *)
  Definition extract (o : opts) (p : param) (s : string) : opts :=
    match p with
    | PStr m => match extract_string s with
                | Some x => Opts (set (o_str o) m x) (o_int o) (o_dbl o) (o_bool o) | None => o end
    | PInt m => match extract_int s with
                | Some x => Opts (o_str o) (set (o_int o) m x) (o_dbl o) (o_bool o) | None => o end
    | PDbl m => match extract_double s with
                | Some x => Opts (o_str o) (o_int o) (set (o_dbl o) m x) (o_bool o) | None => o end
    | PBool m => o                                   (* not reached: 69-72 *)
    end.

  (** vector::operator[]: no bounds check. *)
  Definition arg_at (argv : list string) (i : Z) : res string :=
    if i <? 0 then UB else match nth_error argv (Z.to_nat i) with Some s => Ok s | None => UB end.
  Definition to_int (x : Z) : Z := (x + 2 ^ 31) mod 2 ^ 32 - 2 ^ 31.

  (** The lambda of register_callback (67-83). *)
  Definition callback (name : string) (prop : param) (idx : Z) (argv : list string) (o : opts) : res opts :=
    a <- arg_at argv idx ;;
    if String.eqb a name then
      match prop with
      | PBool m => Ok (Opts (o_str o) (o_int o) (o_dbl o) (set (o_bool o) m true))
      | _ =>
        if idx <? to_int (u64 (Z.of_nat (List.length argv) - 1)) then
          v <- arg_at argv (idx + 1) ;; Ok (extract o prop v)
        else Ok o
      end
    else Ok o.

  (** callbacks_ (54): a map ordered by name; operator[] replaces (67). *)
  Definition cbmap := list (string * param).
  Definition str_lt (a b : string) : bool := match String.compare a b with Lt => true | _ => false end.
  Fixpoint map_insert (m : cbmap) (name : string) (p : param) : cbmap :=
    match m with
    | [] => [(name, p)]
    | (n, q) :: r => if str_lt name n then (name, p) :: m else (n, q) :: map_insert r name p
    end.
  Definition map_set (m : cbmap) (name : string) (p : param) : cbmap :=
    map_insert (filter (fun e => negb (String.eqb (fst e) name)) m) name p.
  (** instance (43-50). *)
  Definition instance (args : list (string * param)) : cbmap :=
    fold_left (fun m a => map_set m (fst a) (snd a)) args [].

  (** parse (33-41): the arguments, [argc] of them; the result is the options object. *)
  Fixpoint each_cb (m : cbmap) (idx : Z) (argv : list string) (o : opts) : res opts :=
    match m with
    | [] => Ok o
    | (n, p) :: r => o' <- callback n p idx argv o ;; each_cb r idx argv o'
    end.
  Fixpoint parse_from (m : cbmap) (todo : nat) (idx : Z) (argv : list string) (o : opts) : res opts :=
    match todo with
    | O => Ok o
    | S k => o' <- each_cb m idx argv o ;; parse_from m k (idx + 1) argv o'
    end.
  Definition parse (m : cbmap) (argv : list string) (o : opts) : res opts :=
    parse_from m (List.length argv) 0 argv o.
End Argv.
Arguments o_str {D}. Arguments o_int {D}. Arguments o_dbl {D}. Arguments o_bool {D}. Arguments Opts {D}.
