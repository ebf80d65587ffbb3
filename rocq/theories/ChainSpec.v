(** Vocabulary for chained pipeline stages. *)
From Verif Require Export ChainModel PipelineSpec.

(** What has become of an item when it reaches stage [m]. *)
Fixpoint through (f : nat -> Z -> Z) (m : nat) (x : Z) : Z :=
  match m with O => x | S k => f k (through f k x) end.

(** The items accepted by the first stage, in order. *)
Definition accepted (ws : list pworld) : list Z :=
  match ws with w :: _ => map snd (pushed w 0) | [] => [] end.

(** A stage is destroyed only when the one before it is gone (the producers outside
    being through with stage 0 is part of the model). *)
Definition in_order (ws : list pworld) (a : jagent) : Prop :=
  match a with
  | Destroy (S k) => forall w, nth_error ws k = Some w -> all_done w
  | _ => True
  end.
Fixpoint front_to_back (B : nat -> nat) (f : nat -> Z -> Z) (ws : list pworld) (s : list jagent) : Prop :=
  match s with
  | [] => True
  | a :: rest => in_order ws a /\ forall ws', jstep B f ws a = Ok ws' -> front_to_back B f ws' rest
  end.

(** Steps a schedule gives to the worker of stage [m]. *)
Definition work_of (m : nat) (s : list jagent) : nat :=
  length (filter (fun a => match a with Work k => (k =? m)%nat | _ => false end) s).
