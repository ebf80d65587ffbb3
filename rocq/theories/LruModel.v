(** Model of include/xitren/cache/lru.hpp.

    put and get do not compile when instantiated: item.template get<0>() is not a member of
    std::tuple (41), the structured binding has two names for a three-element tuple (70), and
    a duration count is compared with a time_point (71).  The model takes the evident reading
    of these three places (the tuple's key; its value and time; the point's count since the
    epoch) and otherwise follows the code statement by statement.
    The mutex (37-39, 66-68) serialises the calls: histories are sequences of calls. *)
From Verif Require Export Base.

Section Lru.
  Variables K V : Type.
  Variable keq : K -> K -> bool.         (* Key's operator== *)
  Variable Size : nat.
  Variable Exception : bool.
  Variable expired_after : Z.            (* expired_after_ (89), counted since the epoch *)

  (** data_item (26). *)
  Record item := Item { i_key : K; i_value : V; i_time : Z }.
  (** list_ (90) and map_ (91; an association list, order irrelevant). *)
  Record lru := Lru { list_ : list item; map_ : list (K * item) }.
  (** lru(expired) (32). *)
  Definition lru_new : lru := Lru [] [].

  Fixpoint map_find (m : list (K * item)) (k : K) : option item :=
    match m with
    | [] => None
    | (k', x) :: m' => if keq k' k then Some x else map_find m' k
    end.
  (** map_[key] = obj. *)
  Fixpoint map_set (m : list (K * item)) (k : K) (x : item) : list (K * item) :=
    match m with
    | [] => [(k, x)]
    | (k', y) :: m' => if keq k' k then (k', x) :: m' else (k', y) :: map_set m' k x
    end.
  (** std::find_if for the key (41-42), returning the parts before and after. *)
  Fixpoint split_key (l : list item) (k : K) : option (list item * item * list item) :=
    match l with
    | [] => None
    | x :: l' =>
      if keq (i_key x) k then Some ([], x, l')
      else match split_key l' k with Some (a, y, b) => Some (x :: a, y, b) | None => None end
    end.

  (** What the caller of put sees. *)
  Inductive put_out := Returned | ThrewMissed.

  (** put (34-61), at time [now]. *)
  Definition put (c : lru) (k : K) (v : V) (now : Z) : res (lru * put_out) :=
    match map_find (map_ c) k with
    | Some _ =>
      match split_key (list_ c) k with
      | Some (a, obj, b) => Ok (Lru (obj :: a ++ b) (map_set (map_ c) k obj), Returned)
      | None => Ok (c, if Exception then ThrewMissed else Returned)
      end
    | None =>
      l <- (if (Size <=? length (list_ c))%nat then
              match list_ c with [] => UB | _ => Ok (removelast (list_ c)) end   (* pop_back *)
            else Ok (list_ c)) ;;
      let obj := Item k v now in
      Ok (Lru (obj :: l) (map_set (map_ c) k obj), Returned)
    end.

  (** get (63-80): flowing off the end (80) is undefined behaviour. *)
  Inductive get_out := Nothing | Got (x : item) | ThrewTimeout.
  Definition get (c : lru) (k : K) (now : Z) : res get_out :=
    match map_find (map_ c) k with
    | Some x => if expired_after <=? now - i_time x then Ok (if Exception then ThrewTimeout else Nothing) else UB
    | None => Ok Nothing
    end.

  (** Histories of put, oldest first. *)
  Definition puts := list (K * V * Z).
  Fixpoint run_puts (c : lru) (h : puts) : res lru :=
    match h with
    | [] => Ok c
    | (k, v, now) :: h' => ' (c', _) <- put c k v now ;; run_puts c' h'
    end.
End Lru.
Arguments Item {K V}. Arguments i_key {K V}. Arguments i_value {K V}. Arguments i_time {K V}.
Arguments Lru {K V}. Arguments list_ {K V}. Arguments map_ {K V}.
Arguments Nothing {K V}. Arguments Got {K V}. Arguments ThrewTimeout {K V}.
Arguments lru_new {K V}. Arguments map_find {K V}. Arguments map_set {K V}. Arguments split_key {K V}.
Arguments put {K V}. Arguments get {K V}. Arguments run_puts {K V}.
