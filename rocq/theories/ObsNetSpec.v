(** Vocabulary for networks of observables: everything is read off the log. *)
From Verif Require Export ObserverSpec ObsNetModel.

Section Spec.
  Context {V : Type}.

  Definition setm {A} (f : addr -> A) (s : addr) (x : A) : addr -> A :=
    fun a => if Pos.eqb a s then x else f a.

  (** Who is registered with each observable. *)
  Definition reg_step (m : addr -> list addr) (e : nev V) : addr -> list addr :=
    match e with
    | NRet (NMake s) _ | NRet (NDestroy s) _ | NRet (NClear s) _ => setm m s []
    | NRet (NCopy a s) _ | NRet (NAssign a s) _ => setm m s (m a)
    | NRet (NAdd s o) ok => setm m s (m s ++ [o])
    | NRet (NRemove s o) ok => setm m s (remove Pos.eq_dec o (m s))
    | _ => m
    end.
  Definition registered (log : list (nev V)) : addr -> list addr := fold_left reg_step log (fun _ => []).

  (** Which observables refuse notifications: those in the middle of one, and those that
      were copied or assigned from such a one, until they are assigned again. *)
  Definition shut_step (m : addr -> bool) (e : nev V) : addr -> bool :=
    match e with
    | NEnter s _ => setm m s true
    | NRet (NNotify s _) ok | NRet (NMake s) _ => setm m s false
    | NRet (NCopy a s) _ | NRet (NAssign a s) _ => setm m s (m a)
    | _ => m
    end.
  Definition shut (log : list (nev V)) : addr -> bool := fold_left shut_step log (fun _ => false).

  (** The observables that exist. *)
  Definition live_step (l : list addr) (e : nev V) : list addr :=
    match e with
    | NRet (NMake s) _ | NRet (NCopy _ s) _ => s :: l
    | NRet (NDestroy s) _ => remove Pos.eq_dec s l
    | _ => l
    end.
  Definition living (log : list (nev V)) : list addr := fold_left live_step log [].

  (** Bodies that only use observables in [l], and neither begin nor end the life of one. *)
  Definition target (c : ncall V) : option addr :=
    match c with
    | NAdd s _ | NRemove s _ | NClear s | NNotify s _ => Some s
    | _ => None
    end.
  Inductive plain (l : list addr) : nbody V -> Prop :=
  | plain_return : plain l NReturn
  | plain_do c s k : target c = Some s -> In s l -> (forall e, plain l (k e)) -> plain l (NDo c k).
  (** Bodies that leave lifetimes alone, whatever observables they use. *)
  Inductive no_lives : nbody V -> Prop :=
  | nl_return : no_lives NReturn
  | nl_do c k : target c <> None -> (forall e, no_lives (k e)) -> no_lives (NDo c k).
  (** And do not clear. *)
  Inductive no_nclear : nbody V -> Prop :=
  | nn_return : no_nclear NReturn
  | nn_do c k : (forall s, c <> NClear s) -> (forall e, no_nclear (k e)) -> no_nclear (NDo c k).

  (** Calls a client may make with the observables in [l] alive. *)
  Definition proper (Max : addr -> Z) (l : list addr) (c : ncall V) : Prop :=
    match c with
    | NMake s => ~ In s l
    | NCopy a s => In a l /\ ~ In s l /\ Max a = Max s
    | NAssign a s => In a l /\ In s l /\ Max a = Max s
    | NDestroy s | NAdd s _ | NRemove s _ | NClear s | NNotify s _ => In s l
    end.

  (** The client's calls, one after the other, starting with nothing. *)
  Definition nreaches Max on_data on_disc (w : net V) : Prop :=
    exists fuel calls, nrun_all Max on_data on_disc fuel nothing calls = Ok w.

  (** Observers that forward what they are told to at most one observable each, and a path
      of such forwarding. *)
  Definition forwards (fwd : addr -> option addr) (log : list (nev V)) (s o : addr) (v : V) : nbody V :=
    match fwd o with Some t => NDo (NNotify t v) (fun _ => NReturn) | None => NReturn end.
  Inductive leads_to (fwd : addr -> option addr) (m : addr -> list addr) : addr -> addr -> Prop :=
  | leads_here s : leads_to fwd m s s
  | leads_on s o t u : In o (m s) -> fwd o = Some t -> leads_to fwd m t u -> leads_to fwd m s u.
End Spec.
