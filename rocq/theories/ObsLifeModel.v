(** Observers that come and go.  observer's destructor is `virtual ~observer() = default`
    (include/xitren/comm/observer.hpp:31): it tells no observable, so an observable may keep
    a pointer to an observer that no longer exists.  On top of ObsNetModel.
    Simplified: observers begin and end between the client's calls, not inside callbacks. *)
From Verif Require Export ObsNetModel.

Inductive lstep (V : Type) :=
| LBorn (o : addr)          (* an observer is constructed *)
| LEnd (o : addr)           (* and destroyed (31) *)
| LCall (c : ncall V).      (* the client makes a call *)
Arguments LBorn {V} o. Arguments LEnd {V} o. Arguments LCall {V} c.

(** The observer whose virtual member is called (137, 159). *)
Definition entered {V} (e : nev V) : option addr :=
  match e with NData _ o _ | NDisc _ o => Some o | _ => None end.

Section Life.
  Variable V : Type.
  Variable Max : addr -> Z.
  Variable on_data : list (nev V) -> addr -> addr -> V -> nbody V.
  Variable on_disc : list (nev V) -> addr -> addr -> nbody V.

  Record life := Life { l_net : net V; l_alive : list addr }.

  Definition exists_ (l : list addr) (o : addr) : bool := existsb (Pos.eqb o) l.
  (** Calling a virtual member of an observer that has ended is undefined. *)
  Definition sane (l : list addr) (evs : list (nev V)) : bool :=
    forallb (fun e => match entered e with Some o => exists_ l o | None => true end) evs.

  Definition lrun (fuel : nat) (x : life) (st : lstep V) : res life :=
    match st with
    | LBorn o => if exists_ (l_alive x) o then UB else Ok (Life (l_net x) (o :: l_alive x))
    | LEnd o =>
      if exists_ (l_alive x) o then Ok (Life (l_net x) (filter (fun p => negb (Pos.eqb p o)) (l_alive x))) else UB
    | LCall c =>
      ' (w, _) <- nrun Max on_data on_disc fuel (l_net x) c ;;
      if sane (l_alive x) (skipn (length (n_log (l_net x))) (n_log w)) then Ok (Life w (l_alive x)) else UB
    end.
  Fixpoint lrun_all (fuel : nat) (x : life) (l : list (lstep V)) : res life :=
    match l with
    | [] => Ok x
    | st :: t => x' <- lrun fuel x st ;; lrun_all fuel x' t
    end.
End Life.
Arguments Life {V}. Arguments l_net {V}. Arguments l_alive {V}. Arguments sane {V}.
Arguments lrun {V}. Arguments lrun_all {V}.
