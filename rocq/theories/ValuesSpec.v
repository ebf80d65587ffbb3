(** Vocabulary for the value-observable properties. *)
From Verif Require Export ValuesModel.

(** Registered observeds after a log, in order of registration. *)
Definition vmember_step (l : list addr) (e : vev) : list addr :=
  match e with
  | VRet (VAdd o) (RErr ok) => l ++ [o]
  | VRet (VRemove o) (RErr ok) => remove Pos.eq_dec o l
  | VRet VClear _ => []
  | _ => l
  end.
Definition vmembers (log : list vev) : list addr := fold_left vmember_step log [].

(** What an operator means on unbounded integers. *)
Definition math (x : Z) (o : vop) : Z :=
  match o with
  | Assign v => v
  | AddEq n => x + n
  | SubEq n => x - n
  | PreInc | PostInc => x + 1
  | PreDec | PostDec => x - 1
  end.
Definition math_step (x : Z) (e : vev) : Z := match e with Applied o => math x o | _ => x end.
Definition math_value (log : list vev) : Z := fold_left math_step log 0.

(** The same read off a list of calls. *)
Definition call_math (x : Z) (c : vcall) : Z := match c with VOp o => math x o | _ => x end.

(** The integers of type [t]. *)
Definition in_ity (t : ity) (x : Z) : Prop := lo t <= x <= hi t.

(** The operand of an operator is an int; an assigned value has type T. *)
Definition int_ty : ity := {| i_bits := 32; i_signed := true |}.
Definition op_ok (t : ity) (o : vop) : Prop :=
  match o with Assign v => in_ity t v | AddEq n | SubEq n => in_ity int_ty n | _ => True end.

(** The operators whose result is published as it should be. *)
Definition faithful_op (o : vop) : bool :=
  match o with Assign _ | AddEq _ | SubEq _ | PreInc => true | _ => false end.

(** The operator's own addition leaves the range of its (signed) type. *)
Definition overflows (t : ity) (x : Z) (o : vop) : Prop :=
  i_signed (common t) = true /\
  match o with
  | AddEq n => ~ in_ity (common t) (x + n)
  | SubEq n => ~ in_ity (common t) (x - n)
  | PreInc | PreDec => ~ in_ity (common t) (x + 1)
  | _ => False
  end.

Definition vreaches (t : ity) (Max : Z) (upd : list vev -> addr -> Z -> vbody)
           (disc : list vev -> addr -> vbody) (w : vworld) : Prop :=
  exists m fuel calls, vrun_all t Max upd disc fuel (vfresh Max m) calls = Ok w.

(** Callbacks that do not use the observable. *)
Definition passive (upd : list vev -> addr -> Z -> vbody) : Prop :=
  forall log o n, upd log o n = VReturn.
Definition passive_disc (disc : list vev -> addr -> vbody) : Prop :=
  forall log o, disc log o = VReturn.

Definition increment (o : vop) : Z :=
  match o with
  | Assign _ => 0 | AddEq n => n | SubEq n => - n
  | PreInc | PostInc => 1 | PreDec | PostDec => -1
  end.
Definition is_rmw (o : vop) : Prop := match o with Assign _ => False | _ => True end.
Fixpoint sum (l : list Z) : Z := match l with [] => 0 | x :: rest => x + sum rest end.

(** An operator that cannot overflow whatever the value; calls and callbacks using only such. *)
Definition tame (t : ity) (o : vop) : Prop := forall x, in_ity t x -> ~ overflows t x o.
Definition tame_call (t : ity) (c : vcall) : Prop := match c with VOp o => tame t o | _ => True end.
Inductive tame_body (t : ity) : vbody -> Prop :=
| tame_return : tame_body t VReturn
| tame_do c k : tame_call t c -> (forall r, tame_body t (k r)) -> tame_body t (VDo c k).

(** A callback of observed [a] that sets the observable to [c] whenever it is told another
    value (a limiter); the other callbacks do nothing. *)
Definition limiter (a : addr) (c : Z) (log : list vev) (o : addr) (n : Z) : vbody :=
  if Pos.eqb o a then if n =? c then VReturn else VDo (VOp (Assign c)) (fun _ => VReturn) else VReturn.

(** The same for an observed that clears the observers whenever it is given a value. *)
Definition clearer (a : addr) (log : list vev) (o : addr) (n : Z) : vbody :=
  if Pos.eqb o a then VDo VClear (fun _ => VReturn) else VReturn.

(** ** The dynamic value observable with callbacks *)
Definition dcreaches (t : ity) (upd : list vev -> addr -> Z -> vbody) (disc : list vev -> addr -> vbody)
           (w : dvc) : Prop :=
  exists m fuel calls, dcrun_all t upd disc fuel (dcfresh m) calls = Ok w.
(** The same without any removal. *)
Definition dcreaches_no_remove (t : ity) (upd : list vev -> addr -> Z -> vbody) (disc : list vev -> addr -> vbody)
           (w : dvc) : Prop :=
  exists m fuel calls, (forall o, ~ In (VRemove o) calls) /\ dcrun_all t upd disc fuel (dcfresh m) calls = Ok w.

(** A return that added an observer or cleared them. *)
Definition grows (e : vev) : bool :=
  match e with VRet (VAdd _) (RErr ok) | VRet VClear _ => true | _ => false end.

(** Calls and callback programs that neither add nor clear, and whose operators cannot overflow. *)
Definition stable_call (t : ity) (c : vcall) : Prop :=
  match c with VAdd _ | VClear => False | VOp o => tame t o | _ => True end.
Inductive stable_body (t : ity) : vbody -> Prop :=
| stable_return : stable_body t VReturn
| stable_do c k : stable_call t c -> (forall r, stable_body t (k r)) -> stable_body t (VDo c k).

(** Observed [a] removes [x] whenever it is given a value. *)
Definition vremover (a x : addr) (log : list vev) (o : addr) (n : Z) : vbody :=
  if Pos.eqb o a then VDo (VRemove x) (fun _ => VReturn) else VReturn.

(** Those of [q], registered after [a], that are still called after [a] has removed [x]. *)
Definition after_removal (x : addr) (q : list addr) (d : addr) : list addr :=
  match q with
  | [] => []
  | _ :: q' => (if in_dec Pos.eq_dec x q then remove Pos.eq_dec x q else q') ++ [last q d]
  end.

(** What an observed holds after a log: the value it was told last, or what it held before. *)
Definition told_step (o : addr) (x : Z) (e : vev) : Z :=
  match e with Store o' n => if Pos.eq_dec o' o then n else x | _ => x end.
Definition told (m : addr -> Z) (log : list vev) (o : addr) : Z := fold_left (told_step o) log (m o).
