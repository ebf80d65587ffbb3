(** Vocabulary for managers and modules that come, are copied, and go. *)
From Verif Require Export MediatorSpec MedNetModel.

(** What exists after a log of events: each manager with its capacity and the modules it
    lists, each module with its class and the manager it points to. *)
Record book := Book {
  mgr_at : addr -> option (nat * list addr);
  mod_at : addr -> option (mdesc * addr)
}.
Definition bput {A} (f : addr -> option A) (a : addr) (x : option A) : addr -> option A :=
  fun b => if Pos.eq_dec b a then x else f b.
Definition edit (b : book) (g : addr) (f : list addr -> list addr) : addr -> option (nat * list addr) :=
  match mgr_at b g with Some (n, l) => bput (mgr_at b) g (Some (n, f l)) | None => mgr_at b end.
Definition book_step (b : book) (e : kev) : book :=
  match e with
  | KEnd (KMgr g n) => Book (bput (mgr_at b) g (Some (n, []))) (mod_at b)
  | KEnd (KMgrCopy g h) | KEnd (KMgrAssign g h) => Book (bput (mgr_at b) g (mgr_at b h)) (mod_at b)
  | KEnd (KMgrEnd g) => Book (bput (mgr_at b) g None) (mod_at b)
  | KEnd (KMod a d g) => Book (edit b g (fun l => l ++ [a])) (bput (mod_at b) a (Some (d, g)))
  | KEnd (KModCopy a c) => Book (mgr_at b) (bput (mod_at b) a (mod_at b c))
  | KEnd (KModEnd a) =>
    Book (match mod_at b a with Some (_, g) => edit b g (remove_first a) | None => mgr_at b end)
         (bput (mod_at b) a None)
  | KEnd (KPoint a g) =>
    Book (mgr_at b) (bput (mod_at b) a (match mod_at b a with Some (d, _) => Some (d, g) | None => None end))
  | _ => b
  end.
Definition booked (log : list kev) : book := fold_left book_step log (Book (fun _ => None) (fun _ => None)).

(** The manager is gone, or lists a module that is gone. *)
Definition broken (b : book) (g : addr) : Prop :=
  match mgr_at b g with None => True | Some (_, l) => exists x, In x l /\ mod_at b x = None end.

(** Why the call [c], begun at [b0], cannot go on at [b]. *)
Definition fault (b0 b : book) (c : kcall) : Prop :=
  match c with
  | KMgr g _ => mgr_at b g <> None
  | KMgrCopy g h => mgr_at b g <> None \/ mgr_at b h = None
  | KMgrAssign g h =>
    match mgr_at b g, mgr_at b h with Some (n, _), Some (m, _) => n <> m | _, _ => True end
  | KMgrEnd g => mgr_at b g = None
  | KMod a _ g =>
    mod_at b a <> None \/ match mgr_at b g with Some (n, l) => length l = n | None => True end
  | KModCopy a c => mod_at b a <> None \/ mod_at b c = None
  | KModEnd a =>
    match mod_at b a with
    | None => True
    | Some (_, g) => match mgr_at b g with Some (n, l) => length l = n /\ In a l | None => True end
    end
  | KPoint a _ => mod_at b a = None
  | KSend a _ =>
    match mod_at b0 a with None => True | Some (_, g) => mod_at b a = None \/ broken b g end
  | KMgrSend g _ _ => broken b g
  end.

(** The calls begun and not ended. *)
Definition kopen_step (l : list kcall) (e : kev) : list kcall :=
  match e with KBegin c => c :: l | KEnd _ => tl l | _ => l end.
Definition kopen (log : list kev) : list kcall := fold_left kopen_step log [].

(** All that begins in the segment ends in it. *)
Inductive finished : list kev -> Prop :=
| fin_nil : finished []
| fin_hook g id bs l : finished l -> finished (KHook g id bs :: l)
| fin_recv a D bs l : finished l -> finished (KRecv a D bs :: l)
| fin_call c l1 l2 : finished l1 -> finished l2 -> finished (KBegin c :: l1 ++ KEnd c :: l2).

(** The log stops inside a call that cannot go on. *)
Definition stuck (log : list kev) : Prop :=
  exists before c since, log = before ++ KBegin c :: since /\ finished since /\ fault (booked before) (booked log) c.

(** The handlers started directly, not by calls nested in what is listed. *)
Fixpoint kdirect (depth : nat) (l : list kev) : list kev :=
  match l with
  | [] => []
  | KBegin _ :: r => kdirect (S depth) r
  | KEnd _ :: r => kdirect (pred depth) r
  | e :: r => if (depth =? 0)%nat then e :: kdirect depth r else kdirect depth r
  end.

(** Every call the body makes satisfies [P]. *)
Inductive kcalls (P : kcall -> Prop) : kbody -> Prop :=
| kc_return : kcalls P KReturn
| kc_do c k : P c -> (forall log, kcalls P (k log)) -> kcalls P (KDo c k).

Definition sending (c : kcall) : Prop := match c with KSend _ _ | KMgrSend _ _ _ => True | _ => False end.
(** Managers are not copied or assigned, and no module is given another manager. *)
Definition tidy (c : kcall) : Prop :=
  match c with KMgrCopy _ _ | KMgrAssign _ _ | KPoint _ _ => False | _ => True end.

(** Nothing is done to the manager [h], and no module is constructed on it or pointed to it. *)
Definition leaves_alone (h : addr) (c : kcall) : Prop :=
  match c with
  | KMgr g _ | KMgrCopy g _ | KMgrAssign g _ | KMgrEnd g | KMod _ _ g | KPoint _ g => g <> h
  | _ => True
  end.

(** How the module at [a] came into existence. *)
Definition born_step (f : addr -> option kcall) (e : kev) : addr -> option kcall :=
  match e with
  | KEnd (KMod a d g) => bput f a (Some (KMod a d g))
  | KEnd (KModCopy a b) => bput f a (Some (KModCopy a b))
  | KEnd (KModEnd a) => bput f a None
  | _ => f
  end.
Definition born (log : list kev) : addr -> option kcall := fold_left born_step log (fun _ => None).

(** The module receives messages of type D: it lists D and does not itself send D. *)
Definition hears (b : book) (D : mty) (a : addr) : bool :=
  match mod_at b a with Some (d, _) => wants (fun _ => d) D a | None => false end.

(** No other type that an existing module sends or receives has the name hash of D. *)
Definition told_apart (hash : string -> Z) (b : book) (D : mty) : Prop :=
  forall a d g E, mod_at b a = Some (d, g) -> E = md_sends d \/ In E (md_recvs d) ->
    hash (ty_name E) = hash (ty_name D) -> E = D.

(** What a manager lists. *)
Definition listed (b : book) (g : addr) : list addr :=
  match mgr_at b g with Some (_, l) => l | None => [] end.

Definition kreaches hash enc handler hook leaves (w : kworld) : Prop :=
  exists fuel calls, krun_all hash enc handler hook leaves fuel kfresh calls = KOk w.

(** The events of a run that ended, or stopped at undefined behaviour. *)
Definition klog (x : kres kworld) : option (list kev) :=
  match x with KOk w => Some (k_log w) | KUB log => Some log | KFuel => None end.
