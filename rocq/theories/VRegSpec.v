(** Vocabulary for value observables that change while other threads use them. *)
From Verif Require Export VRegModel ValuesSpec.

(** The state left by single-threaded use, with the functions the observeds have. *)
Definition mem_of (fn : addr -> option nat) (st : addr -> nat) (w : vworld) : rmem :=
  RM (v_val w) (v_slots w) (v_cnt w) (v_mirror w) fn st.
(** An event of single-threaded use (ValuesModel): a store is followed by the function, if any. *)
Definition seen (fn : addr -> option nat) (e : vev) : list rvev :=
  match e with
  | Applied op => [RApplied op]
  | Store o n => RStored o n :: match fn o with Some f => [RCalled o f n] | None => [] end
  | VDisc o => [RDisced o]
  | VRet c r => [RRet (RC c) r]
  end.
(** A call made with nobody else there, the functions returning at once: what it leaves and
    what is seen. *)
Definition alone (t : ity) (Max : Z) (m : rmem) (c : rcall) : res (rmem * list rvev) :=
  match c with
  | RC c =>
    ' (w, _) <- vrun t Max (fun _ _ _ => VReturn) (fun _ _ => VReturn) 1
                  (VW (r_val m) (r_slots m) (r_cnt m) (r_mirror m) []) c ;;
    Ok (mem_of (r_fun m) (r_set m) w, flat_map (seen (r_fun m)) (v_log w))
  | RFun o f =>
    Ok (RM (r_val m) (r_slots m) (r_cnt m) (r_mirror m) (fun a => if Pos.eqb a o then f else r_fun m a)
           (fun a => if Pos.eqb a o then S (r_set m a) else r_set m a), [RRet c RUnit])
  end.

(** The observeds [l] are told [v], one after the other. *)
Definition informed (fn : addr -> option nat) (l : list addr) (v : Z) : list rvev := flat_map (fun o => seen fn (Store o v)) l.
(** What thread [i] did. *)
Definition of_thread (i : nat) (l : list (nat * rvev)) : list rvev :=
  flat_map (fun x => if (fst x =? i)%nat then [snd x] else []) l.

(** Threads [i] and [j] make one call each, the others none. *)
Definition two (i j : nat) (a b : rcall) (k : nat) : list rcall :=
  if (k =? i)%nat then [a] else if (k =? j)%nat then [b] else [].
Definition all_done (w : rworld) : Prop := forall i, r_thr w i = RStop.
(** [a] happened before [b]. *)
Definition before {A} (l : list A) (a b : A) : Prop := exists l1 l2 l3, l = l1 ++ a :: l2 ++ b :: l3.
(** Two threads are about to access the same plain member, one of them to write it. *)
Definition data_race (w : rworld) : Prop :=
  exists i j p b, i <> j /\ touches (r_thr w i) = Some (p, true) /\ touches (r_thr w j) = Some (p, b).
(** An operator does not overflow at the value [x]. *)
Definition fits (t : ity) (x : Z) (c : rcall) : Prop :=
  match c with RC (VOp op) => ~ overflows t x op | _ => True end.
(** What an operator publishes: x++ and x-- the old value, --x one more than it, the others the
    new value. *)
Definition publishes (t : ity) (x : Z) (op : vop) (v : Z) : Prop :=
  match op with
  | PostInc | PostDec => v = x
  | PreDec => v = conv t (x + 1)
  | _ => v = conv t (math x op)
  end.
