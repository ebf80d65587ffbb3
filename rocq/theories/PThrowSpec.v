(** Vocabulary for pipelines whose function throws. *)
From Verif Require Export PThrowModel PipelineSpec.

(** Worker [n] is in the function with the item [v]; it had the items [e] before. *)
Definition calling (w : pworld) (n : nat) (e : list Z) (v : Z) : Prop :=
  nth_error (p_workers w) n = Some WCall /\ processed w n = e ++ [v].
(** It is not. *)
Definition between_calls (w : pworld) (n : nat) : Prop := nth_error (p_workers w) n <> Some WCall.
