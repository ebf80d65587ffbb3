(** Vocabulary for the mediator properties. *)
From Verif Require Export MediatorModel.

(** The calls begun and not ended after a log, innermost first. *)
Definition open_step (l : list mcall) (e : mev) : list mcall :=
  match e with Begin c => c :: l | End _ | Threw _ => tl l | _ => l end.
Definition open_calls (log : list mev) : list mcall := fold_left open_step log [].

(** The handlers started directly, not by calls nested in what is listed. *)
Fixpoint direct (depth : nat) (l : list mev) : list mev :=
  match l with
  | [] => []
  | Begin _ :: r => direct (S depth) r
  | End _ :: r | Threw _ :: r => direct (pred depth) r
  | e :: r => if (depth =? 0)%nat then e :: direct depth r else direct depth r
  end.

Definition mty_eq_dec (x y : mty) : {x = y} + {x <> y}.
Proof. decide equality; [apply Nat.eq_dec|apply string_dec]. Defined.

(** The module receives messages of type D: it lists D and does not itself send D. *)
Definition wants (desc : addr -> mdesc) (D : mty) (a : addr) : bool :=
  if in_dec mty_eq_dec D (md_recvs (desc a)) then
    if mty_eq_dec (md_sends (desc a)) D then false else true
  else false.

(** A type some module sends or receives. *)
Definition in_use (desc : addr -> mdesc) (D : mty) : Prop :=
  exists a, D = md_sends (desc a) \/ In D (md_recvs (desc a)).

(** Every call the body makes satisfies [P]. *)
Inductive calls_only (P : mcall -> Prop) : mbody -> Prop :=
| co_return : calls_only P MReturn
| co_throw : calls_only P MThrow
| co_do c k : P c -> (forall log, calls_only P (k log)) -> calls_only P (MDo c k).

(** Handlers that may send but neither construct nor destroy modules. *)
Definition only_sends : mbody -> Prop :=
  calls_only (fun c => match c with ModSend _ _ | MgrSend _ _ => True | _ => False end).
(** Handlers that may send and construct modules. *)
Definition never_destroys : mbody -> Prop :=
  calls_only (fun c => match c with Destroy _ => False | _ => True end).

(** Handlers that do not throw (they catch what they are thrown). *)
Inductive never_throws : mbody -> Prop :=
| nt_return : never_throws MReturn
| nt_do c k : (forall log, never_throws (k log)) -> never_throws (MDo c k).

Definition mreaches hash enc desc Sources handler hook (w : mworld) : Prop :=
  exists fuel calls, mrun_all hash enc desc Sources handler hook fuel (mfresh Sources) calls = MOk w.

(** The type a call sends, and the value. *)
Definition sent (desc : addr -> mdesc) (c : mcall) : option (mty * Z) :=
  match c with
  | ModSend a v => Some (md_sends (desc a), v)
  | MgrSend D v => Some (D, v)
  | _ => None
  end.

(** The module that sends. *)
Definition sender (c : mcall) : option addr := match c with ModSend s _ => Some s | _ => None end.

(** The manager's own data() is told of the messages of modules. *)
Definition told (hash : string -> Z) (enc : mty -> Z -> list Z) (desc : addr -> mdesc) (c : mcall) : list mev :=
  match c with
  | ModSend s v => [Hook (hash (ty_name (md_sends (desc s)))) (enc (md_sends (desc s)) v)]
  | _ => []
  end.

(** One module, [d], destroys the module [x] whenever it gets a message; the other
    handlers do nothing. *)
Definition destroyer (d x : addr) (log : list mev) (a : addr) (D : mty) (bs : list Z) : mbody :=
  if Pos.eqb a d then MDo (Destroy x) (fun _ => MReturn) else MReturn.
(** The modules after [d] that still get the message: [q] are those registered after it. *)
Definition still_reached (x : addr) (q : list addr) : list addr :=
  if in_dec Pos.eq_dec x q then remove Pos.eq_dec x q else tl q.
