(** Vocabulary for timers whose function throws. *)
From Verif Require Export IThrowModel IntervalSpec.

(** The function has been called and has not returned; it may be in stop(). *)
Definition in_function (s : st) : Prop :=
  match worker s with WCall | WCbClear | WCbWait | WCbFin => True | _ => False end.
