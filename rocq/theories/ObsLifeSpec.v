(** Vocabulary for observers that come and go. *)
From Verif Require Export ObsNetSpec ObsLifeModel.

Section Spec.
  Context {V : Type}.
  (** Calls that enter every registered observer. *)
  Definition enters_all (log : list (nev V)) (c : ncall V) (s : addr) : Prop :=
    c = NClear s \/ c = NDestroy s \/ (exists v, c = NNotify s v) /\ shut log s = false.

  (** Bodies that leave lifetimes alone and add only observers in [A]. *)
  Inductive tame (A : list addr) : nbody V -> Prop :=
  | tame_return : tame A NReturn
  | tame_do c k : target c <> None -> (forall s o, c = NAdd s o -> In o A) -> (forall e, tame A (k e)) -> tame A (NDo c k).

  Variable Max : addr -> Z.
  Variable on_data : list (nev V) -> addr -> addr -> V -> nbody V.
  Variable on_disc : list (nev V) -> addr -> addr -> nbody V.

  (** All that can come about. *)
  Definition lreaches (x : life V) : Prop :=
    exists fuel steps, lrun_all Max on_data on_disc fuel (Life nothing []) steps = Ok x.

  (** The calls of a client that adds only existing observers, with callbacks that do the same. *)
  Definition careful_call (x : life V) (c : ncall V) : Prop :=
    (forall s o, c = NAdd s o -> In o (l_alive x)) /\
    (forall log s o v, tame (l_alive x) (on_data log s o v)) /\ (forall log s o, tame (l_alive x) (on_disc log s o)).
  (** A careful client also ends an observer only when it is registered nowhere. *)
  Inductive careful : life V -> Prop :=
  | careful_start : careful (Life nothing [])
  | careful_born x o f x' : careful x -> lrun Max on_data on_disc f x (LBorn o) = Ok x' -> careful x'
  | careful_end x o f x' : careful x -> (forall s, In s (living (n_log (l_net x))) -> ~ In o (registered (n_log (l_net x)) s)) ->
      lrun Max on_data on_disc f x (LEnd o) = Ok x' -> careful x'
  | careful_do x c f x' : careful x -> careful_call x c -> lrun Max on_data on_disc f x (LCall c) = Ok x' -> careful x'.

  (** A scope in which the observable is declared first, then its observers, which are
      registered; at the end everything is destroyed in the opposite order. *)
  Definition observable_first (s : addr) (obs : list addr) : list (lstep V) :=
    LCall (NMake s) :: map LBorn obs ++ map (fun o => LCall (NAdd s o)) obs ++ map LEnd (rev obs) ++ [LCall (NDestroy s)].
  (** The observers first. *)
  Definition observers_first (s : addr) (obs : list addr) : list (lstep V) :=
    map LBorn obs ++ LCall (NMake s) :: map (fun o => LCall (NAdd s o)) obs ++ LCall (NDestroy s) :: map LEnd (rev obs).
End Spec.
