(** Vocabulary for the mediator used by several threads. *)
From Verif Require Export MedShareModel MediatorSpec.

(** What a single-threaded use leaves in memory; all objects are whole. *)
Definition gmem_of (w : mworld) : gmem := GM (m_tab w) (m_cnt w) (registered (m_log w)) [].

(** What thread [t] did. *)
Definition by_gthread (t : nat) (l : list (nat * mev)) : list mev :=
  flat_map (fun x => if (fst x =? t)%nat then [snd x] else []) l.
(** No thread is in a call or has one to make. *)
Definition all_back (w : gworld) : Prop := forall t, g_thr w t = GTh [] GIdle.
(** Thread [t] is in the handler of module [a]. *)
Definition in_handler (w : gworld) (t : nat) (a : addr) : Prop := exists m i, g_pc (g_thr w t) = GHand m i a.
(** Thread [t] makes the calls [a], thread [u] the calls [b], the others none. *)
Definition gtwo (t u : nat) (a b : list mcall) (k : nat) : list mcall :=
  if (k =? t)%nat then a else if (k =? u)%nat then b else [].
(** Two threads are about to access the same variable, one of them to write it. *)
Definition grace (w : gworld) : Prop :=
  exists t u p b, t <> u /\ gaccess (g_pc (g_thr w t)) = Some (p, true) /\ gaccess (g_pc (g_thr w u)) = Some (p, b).
(** [a] happened before [b]. *)
Definition earlier {A} (l : list A) (a b : A) : Prop := exists l1 l2 l3, l = l1 ++ a :: l2 ++ b :: l3.

Section Spec.
  Variable hash : string -> Z.
  Variable enc : mty -> Z -> list Z.
  Variable desc : addr -> mdesc.

  (** The call sends a value of type [D] whose bytes are as many as its size, its sender is
      one of [reg], and no other type in use has the hash of its name. *)
  Definition good_send (reg : list addr) (c : mcall) (D : mty) (v : Z) : Prop :=
    sent desc c = Some (D, v) /\ length (enc D v) = ty_size D /\
    (forall s, sender c = Some s -> In s reg) /\
    forall D', in_use desc D' -> hash (ty_name D') = hash (ty_name D) -> D' = D.
  (** What is to be seen of it when the modules [l] are registered. *)
  Definition seen (l : list addr) (c : mcall) : list mev :=
    match sent desc c with
    | None => []
    | Some (D, v) =>
      Begin c :: told hash enc desc c ++ map (fun a => Recv a D (enc D v)) (filter (wants desc D) l) ++ [End c]
    end.

  (** One thread: the calls made one after the other, each of them returning; handlers and
      the manager's data() do not use the mediator. *)
  Definition idle_handler (log : list mev) (a : addr) (D : mty) (bs : list Z) : mbody := MReturn.
  Definition idle_hook (log : list mev) (id : Z) (bs : list Z) : mbody := MReturn.
  Inductive each_returns (n : nat) : mworld -> list mcall -> mworld -> Prop :=
  | er_none w : each_returns n w [] w
  | er_call w c f w1 rest w2 : mrun hash enc desc n idle_handler idle_hook f w c = MOk w1 ->
      each_returns n w1 rest w2 -> each_returns n w (c :: rest) w2.
End Spec.
(** The calls of thread [t] among calls said with their threads. *)
Definition calls_by (t : nat) (l : list (nat * mcall)) : list mcall :=
  flat_map (fun x => if (fst x =? t)%nat then [snd x] else []) l.
(** The schedule in which the threads [ts] take turns, of [ks] steps. *)
Definition turns (ts ks : list nat) : list nat := flat_map (fun x => repeat (fst x) (snd x)) (combine ts ks).
