(** Vocabulary for networks of value observables. *)
From Verif Require Export ValuesSpec VNetModel.

(** Who is registered with each observable after a log, in order of registration. *)
Definition xmember_step (m : addr -> list addr) (e : xev) : addr -> list addr :=
  let upd s l := fun a => if Pos.eqb a s then l else m a in
  match e with
  | XRet (XAdd s o) (RErr ok) => upd s (m s ++ [o])
  | XRet (XRemove s o) (RErr ok) => upd s (remove Pos.eq_dec o (m s))
  | XRet (XClear s) _ => upd s []
  | _ => m
  end.
Definition xmembers (log : list xev) : addr -> list addr := fold_left xmember_step log (fun _ => []).

(** What value() of an observable answers. *)
Definition xvalue (w : vnet) (s : addr) : Z := x_val (x_cell w s).

Definition xreaches ty Max upd disc (w : vnet) : Prop :=
  exists m fuel calls, xrun_all ty Max upd disc fuel (xfresh Max m) calls = Ok w.

(** Calls and callbacks whose operators cannot overflow. *)
Definition xtame_call (ty : addr -> ity) (c : xcall) : Prop :=
  match c with XOp s o => tame (ty s) o | _ => True end.
Inductive xtame (ty : addr -> ity) : xbody -> Prop :=
| xtame_return : xtame ty XReturn
| xtame_do c k : xtame_call ty c -> (forall r, xtame ty (k r)) -> xtame ty (XDo c k).

(** ** Derived values
    An observable may be meant to hold a formula over others, its inputs. *)
Record formula := Formula { f_inputs : list addr; f_of : list Z -> Z }.

(** The usual way to write it: observeds of the inputs whose callbacks read all the inputs
    with value() and assign the result.  [target o] is the observable that observed [o]
    recomputes, if any; the other observeds only keep the value. *)
Definition result (r : vres) : Z := match r with RVal z => z | _ => 0 end.
Fixpoint reading (l : list addr) (k : list Z -> xbody) : xbody :=
  match l with
  | [] => k []
  | s :: rest => XDo (XValue s) (fun r => reading rest (fun vs => k (result r :: vs)))
  end.
Definition recompute (form : addr -> formula) (d : addr) : xbody :=
  reading (f_inputs (form d)) (fun vs => XDo (XOp d (Assign (f_of (form d) vs))) (fun _ => XReturn)).
Definition deriving (form : addr -> formula) (target : addr -> option addr)
           (log : list xev) (o : addr) (n : Z) : xbody :=
  match target o with Some d => recompute form d | None => XReturn end.

(** The observable holds its formula over the present values of its inputs (as converted
    to its type). *)
Definition settled (ty : addr -> ity) (form : addr -> formula) (w : vnet) (d : addr) : Prop :=
  xvalue w d = conv (ty d) (f_of (form d) (map (xvalue w) (f_inputs (form d)))).
(** The observeds of [s] hold its value. *)
Definition mirrored (w : vnet) (s : addr) : Prop :=
  forall o, In o (xmembers (x_log w) s) -> x_mirror w o = xvalue w s.

Section Graph.
  Variable target : addr -> option addr.
  (** Who is registered where. *)
  Variable m : addr -> list addr.

  (** An update of [s] recomputes [d]; and at second hand. *)
  Definition feeds (s d : addr) : Prop := exists o, In o (m s) /\ target o = Some d.
  Inductive leads : addr -> addr -> Prop :=
  | leads_one s d : feeds s d -> leads s d
  | leads_more s d u : feeds s d -> leads d u -> leads s u.

  (** Whatever is recomputed is recomputed on the change of each of its inputs. *)
  Definition complete (form : addr -> formula) : Prop :=
    forall s d x, feeds s d -> In x (f_inputs (form d)) -> feeds x d.
  (** No observed is registered with two observables. *)
  Definition exclusive : Prop := forall s u o, In o (m s) -> In o (m u) -> s = u.

  (** The number of ways from [s] to [u], of less than [k] steps. *)
  Fixpoint ways (k : nat) (s u : addr) : nat :=
    match k with
    | O => O
    | S k' =>
      (if Pos.eq_dec s u then 1 else 0) +
      fold_right (fun o n => match target o with Some d => ways k' d u + n | None => n end) 0 (m s)
    end%nat.
End Graph.

(** The updates of [u] among events. *)
Definition updates (u : addr) (evs : list xev) : nat :=
  List.length (filter (fun e => match e with XApplied s _ => Pos.eqb s u | _ => false end) evs).
(** What observed [o] was given, in order. *)
Definition given (o : addr) (evs : list xev) : list Z :=
  flat_map (fun e => match e with XStore _ o' n => if Pos.eqb o' o then [n] else [] | _ => [] end) evs.
