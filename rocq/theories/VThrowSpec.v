(** Vocabulary for value observables whose callbacks may throw. *)
From Verif Require Export VThrowModel VLifeSpec.

(** The same callback with [h] done in place of each throw. *)
Fixpoint instead (h : ybody) (b : zbody) : ybody :=
  match b with
  | ZReturn => YReturn
  | ZThrow => h
  | ZDo c k => YDo c (fun log => instead h (k log))
  end.
Definition instead_upd (h : ybody) (upd : list yev -> addr -> Z -> zbody) : list yev -> addr -> Z -> ybody :=
  fun log o n => instead h (upd log o n).
Definition instead_disc (h : ybody) (disc : list yev -> addr -> zbody) : list yev -> addr -> ybody :=
  fun log o => instead h (disc log o).

(** States the program reaches without ending. *)
Definition zreaches ty Max upd disc (w : yworld) : Prop :=
  exists fuel calls, zrun_all ty Max upd disc fuel yfresh calls = ZOk w.

(** Callbacks that do nothing but throw or return, depending on the observed and the value. *)
Definition plain_upd (bad : addr -> Z -> bool) : list yev -> addr -> Z -> zbody :=
  fun _ o n => if bad o n then ZThrow else ZReturn.
Definition plain_disc (bad : addr -> bool) : list yev -> addr -> zbody :=
  fun _ o => if bad o then ZThrow else ZReturn.
(** The event is the start of a callback that throws. *)
Definition bad_ev (bu : addr -> Z -> bool) (bd : addr -> bool) (e : yev) : option addr :=
  match e with
  | YStore _ o n => if bu o n then Some o else None
  | YDisc _ o => if bd o then Some o else None
  | _ => None
  end.
