(** Vocabulary for the dynamic value observable used by several threads. *)
From Verif Require Export VDynModel ValuesSpec.

(** The vector holds [l], with room for [room] more before its array is replaced. *)
Definition holds (m : dmem) (l : list addr) (room : nat) : Prop :=
  exists tl, length tl = room /\ ((length l + room)%nat = 0%nat \/ d_start m <> 0%nat) /\
    nth_error (d_heap m) (d_start m) = Some (Some (map Some l ++ tl)) /\
    d_fin m = (d_start m, length l) /\ d_end m = (d_start m, (length l + room)%nat).

(** Threads [i] and [j] make one call each, the others none. *)
Definition two (i j : nat) (a b : vcall) (k : nat) : list vcall :=
  if (k =? i)%nat then [a] else if (k =? j)%nat then [b] else [].
Definition all_done (w : dworld) : Prop := forall i, d_thr w i = DStop.
(** [a] happened before [b]. *)
Definition before {A} (l : list A) (a b : A) : Prop := exists l1 l2 l3, l = l1 ++ a :: l2 ++ b :: l3.
(** Two threads are about to access the same plain variable, one of them to write it. *)
Definition data_race (w : dworld) : Prop :=
  exists i j p b, i <> j /\ dtouches (d_thr w i) = Some (p, true) /\ dtouches (d_thr w j) = Some (p, b).
(** An operator does not overflow at the value [x]. *)
Definition fits (t : ity) (x : Z) (c : vcall) : Prop := match c with VOp op => ~ overflows t x op | _ => True end.
(** What an operator used at the value [x] tells the observeds. *)
Definition publishes (t : ity) (x : Z) (op : vop) (v : Z) : Prop :=
  match op with
  | PostInc | PostDec => v = x
  | PreDec => v = conv t (x + 1)
  | _ => v = conv t (math x op)
  end.
