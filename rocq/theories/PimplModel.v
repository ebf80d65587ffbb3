(** Model of include/xitren/func/fast_pimpl.hpp. *)
From Verif Require Export Base.

(** ** Storage (199) and static checks (157-172) *)
Definition validate (Size Alignment : Z) (Strict : bool) (ActualSize ActualAlignment : Z) : bool :=
  (ActualSize <=? Size) && ((Size =? ActualSize) || negb Strict) && (Alignment mod ActualAlignment =? 0).
(** std::aligned_storage_t<Size, Alignment>: some address that is a multiple of Alignment,
    [Size] bytes long.  get() (179-194) returns that address. *)
Definition storage_ok (Alignment : Z) (addr : Z) : Prop := addr mod Alignment = 0.
Definition get_address (addr : Z) : Z := addr.

(** ** Lifetimes.  The contained type T is given by what its special members do to values:
    copying, moving, copy-assigning, move-assigning.  Each may throw; an object it was working on,
    other than one under construction, then keeps whatever value it had reached. *)
Section Pimpl.
  Variable V : Type.
  Variable t_copy : V -> option V.
  Variable t_move : V -> option V * V.                (* new object or None, what is left in the source *)
  Variable t_assign : V -> V -> V * bool.             (* old target, source: target afterwards, completed? *)
  Variable t_move_assign : V -> V -> V * V * bool.    (* target and source afterwards, completed? *)
  Variable t_self_assign t_self_move : V -> V * bool. (* the same with target and source the same object *)

  (** Calls of T's constructors and destructor on the storage of fast_pimpl [i]. *)
  Inductive event := Built (i : nat) | Died (i : nat).
  Record world := World { objs : nat -> option V; log : list event }.   (* log newest first *)
  Definition world0 : world := World (fun _ => None) [].
  Definition place (w : world) (i : nat) (v : option V) : nat -> option V :=
    fun j => if Nat.eqb j i then v else objs w j.

  Inductive op :=
  | Construct (i : nat) (v : option V)     (* fast_pimpl(args...) (53-56); None: T's constructor throws *)
  | MoveConstruct (i j : nat)              (* (63) *)
  | CopyConstruct (i j : nat)              (* (70), from a const fast_pimpl *)
  | Destroy (i : nat)                      (* (75-79) *)
  | Assign (i j : nat)                     (* (88-93) *)
  | MoveAssign (i j : nat)                 (* (102-107) *)
  | Mutate (i : nat) (g : V -> V).         (* through operator-> or operator* (114-151) *)

  (** [Ok (w, true)]: completed; [Ok (w, false)]: left by an exception; UB: the program used an
      object that does not exist, or built over one that does. *)
  Definition build (w : world) (i : nat) (v : V) : world := World (place w i (Some v)) (Built i :: log w).
  Definition step (w : world) (o : op) : res (world * bool) :=
    match o with
    | Construct i v =>
      match objs w i, v with
      | Some _, _ => UB
      | None, Some v => Ok (build w i v, true)
      | None, None => Ok (w, false)
      end
    | MoveConstruct i j =>
      match objs w i, objs w j with
      | None, Some s =>
        match t_move s with
        | (Some v, s') => Ok (build (World (place w j (Some s')) (log w)) i v, true)
        | (None, s') => Ok (World (place w j (Some s')) (log w), false)
        end
      | _, _ => UB
      end
    | CopyConstruct i j =>
      match objs w i, objs w j with
      | None, Some s => match t_copy s with Some v => Ok (build w i v, true) | None => Ok (w, false) end
      | _, _ => UB
      end
    | Destroy i =>
      match objs w i with
      | Some _ => Ok (World (place w i None) (Died i :: log w), true)
      | None => UB
      end
    | Assign i j =>
      match objs w i, objs w j with
      | Some d, Some s =>
        let (d', b) := if Nat.eqb i j then t_self_assign d else t_assign d s in
        Ok (World (place w i (Some d')) (log w), b)
      | _, _ => UB
      end
    | MoveAssign i j =>
      match objs w i, objs w j with
      | Some d, Some s =>
        if Nat.eqb i j then
          let (d', b) := t_self_move d in Ok (World (place w i (Some d')) (log w), b)
        else
          let '(d', s', b) := t_move_assign d s in
          Ok (World (place (World (place w j (Some s')) (log w)) i (Some d')) (log w), b)
      | _, _ => UB
      end
    | Mutate i g =>
      match objs w i with
      | Some v => Ok (World (place w i (Some (g v))) (log w), true)
      | None => UB
      end
    end.

  Fixpoint run (w : world) (h : list op) : res world :=
    match h with
    | [] => Ok w
    | o :: h' => ' (w', _) <- step w o ;; run w' h'
    end.
End Pimpl.
Arguments objs {V}. Arguments log {V}. Arguments world0 {V}.
Arguments Construct {V}. Arguments MoveConstruct {V}. Arguments CopyConstruct {V}. Arguments Destroy {V}.
Arguments Assign {V}. Arguments MoveAssign {V}. Arguments Mutate {V}.
Arguments step {V}. Arguments run {V}. Arguments World {V}.
