(** Several mediator managers and modules with their lifetimes: module and manager objects
    that are constructed, copied, assigned and destroyed in any order, and modules whose
    public mediator_ is changed (include/xitren/comm/mediator.hpp).
    The tables and the byte copy are those of MediatorModel.
    Simplified: no exceptions (MediatorModel has them); receive() is not overridden; the
    entries past the count, which a copy of a manager copies too, are taken to be null
    (they are if the manager was value-initialised, else reading them is undefined). *)
From Verif Require Export MediatorModel.

Inductive kcall :=
| KMgr (g : addr) (n : nat)          (* manager<n> constructed at g (264-270,375,380) *)
| KMgrCopy (g h : addr)              (* implicit copy constructor: g is a copy of h *)
| KMgrAssign (g h : addr)            (* implicit copy assignment: g = h *)
| KMgrEnd (g : addr)                 (* ~manager (270) *)
| KMod (a : addr) (d : mdesc) (g : addr)   (* module<...> of class d constructed on g (135) *)
| KModCopy (a b : addr)              (* implicit copy constructor: id_ and mediator_ (31,36) are copied *)
| KModEnd (a : addr)                 (* ~module (140) *)
| KPoint (a g : addr)                (* a.mediator_ = &g: a public member (36) *)
| KSend (a : addr) (v : Z)           (* module::send(field) (147-153) *)
| KMgrSend (g : addr) (D : mty) (v : Z).   (* manager::send(data) (308-319) *)

Inductive kev :=
| KBegin (c : kcall)
| KHook (g : addr) (id : Z) (bs : list Z)   (* g's data(id, ptr, sz) (328-330) starts *)
| KRecv (a : addr) (D : mty) (bs : list Z)  (* a's data(D const&) (114-116) starts *)
| KEnd (c : kcall).

(** What a handler does: calls, depending on all that happened, then return. *)
Inductive kbody := KReturn | KDo (c : kcall) (k : list kev -> kbody).

(** The objects in existence: tables and counts (375-380); class and mediator_ (31,36). *)
Record kworld := KW {
  k_mgr : addr -> option (list ptr * nat);
  k_mod : addr -> option (mdesc * addr);
  k_log : list kev
}.
Definition kfresh : kworld := KW (fun _ => None) (fun _ => None) [].
Definition kput {A} (f : addr -> A) (a : addr) (x : A) : addr -> A :=
  fun b => if Pos.eqb b a then x else f b.
Definition kemit (w : kworld) (e : kev) : kworld := KW (k_mgr w) (k_mod w) (k_log w ++ [e]).
Definition put_mgr (w : kworld) (g : addr) (x : option (list ptr * nat)) : kworld :=
  KW (kput (k_mgr w) g x) (k_mod w) (k_log w).
Definition put_mod (w : kworld) (a : addr) (x : option (mdesc * addr)) : kworld :=
  KW (k_mgr w) (kput (k_mod w) a x) (k_log w).

(** Undefined behaviour keeps the events that led to it. *)
Inductive kres (A : Type) := KOk (a : A) | KUB (log : list kev) | KFuel.
Arguments KOk {A} a. Arguments KUB {A} log. Arguments KFuel {A}.
Definition kbind {A B} (x : kres A) (f : A -> kres B) : kres B :=
  match x with KOk a => f a | KUB l => KUB l | KFuel => KFuel end.
Definition klift {A} (log : list kev) (x : res A) : kres A :=
  match x with Ok a => KOk a | UB => KUB log | Fuel => KFuel end.
(** Using an object that must exist. *)
Definition kneed {A} (w : kworld) (x : option A) : kres A :=
  match x with Some a => KOk a | None => KUB (k_log w) end.

Section MedNet.
  (** std::hash<std::string>; object representations. *)
  Variable hash : string -> Z.
  Variable enc : mty -> Z -> list Z.
  (** The overrides of receiver_impl<D>::data and of manager::data. *)
  Variable handler : list kev -> addr -> mty -> list Z -> kbody.
  Variable hook : list kev -> addr -> Z -> list Z -> kbody.
  (** What manager::data leaves in the message: its ptr (329) is not const.  Simplified:
      what it writes it has written by the time it returns. *)
  Variable leaves : list kev -> addr -> Z -> list Z -> list Z.

  (** id_ of a module of class d (24,135). *)
  Definition kid (d : mdesc) : Z := hash (ty_name (md_sends d)).

  Fixpoint kbody_run (step : kworld -> kcall -> kres kworld) (b : kbody) (w : kworld) : kres kworld :=
    match b with
    | KReturn => KOk w
    | KDo c k => kbind (step w c) (fun w' => kbody_run step (k (k_log w')) w')
    end.

  (** convert_field (191-203). *)
  Definition kconvert (step : kworld -> kcall -> kres kworld) (a : addr) (D : mty) (bs : list Z)
             (w : kworld) : kres kworld :=
    if negb (ty_size D =? length bs)%nat then KOk w
    else kbind (klift (k_log w) (read_bytes (ty_size D) bs)) (fun got =>
         kbody_run step (handler (k_log w) a D got) (kemit w (KRecv a D got))).

  (** receive and receiver_converter (162-168,214-250). *)
  Fixpoint kreceive (step : kworld -> kcall -> kres kworld) (a : addr) (recvs : list mty)
           (id : Z) (bs : list Z) (w : kworld) : kres kworld :=
    match recvs with
    | [] => KOk w
    | D :: rest => if id =? hash (ty_name D) then kconvert step a D bs w
                   else kreceive step a rest id bs w
    end.

  (** The id a dispatch compares with: sender.id_ read anew (342-345), or loc_id (313). *)
  Definition kident (snd : addr + mty) (w : kworld) : kres Z :=
    match snd with
    | inl s => kbind (kneed w (k_mod w s)) (fun '(d, _) => KOk (kid d))
    | inr D => KOk (hash (ty_name D))
    end.

  (** The loops of distribute (343-347) and manager::send (312-318): manager, module and
      sender are used again in each iteration. *)
  Fixpoint kloop (step : kworld -> kcall -> kres kworld) (g : addr) (snd : addr + mty) (bs : list Z)
           (k i : nat) (w : kworld) : kres kworld :=
    match k with
    | O => KFuel
    | S k' =>
      kbind (kneed w (k_mgr w g)) (fun '(tab, cnt) =>
      if (i <? cnt)%nat then
        kbind (klift (k_log w) (slot tab i)) (fun p =>
        kbind (kneed w p) (fun a =>
        kbind (kneed w (k_mod w a)) (fun '(d, _) =>
        kbind (kident snd w) (fun id =>
        if kid d =? id then kloop step g snd bs k' (S i) w
        else kbind (kreceive step a (md_recvs d) id bs w) (kloop step g snd bs k' (S i))))))
      else KOk w)
    end.

  (** One call; [fuel] bounds nesting and iterations.  Constructing over an object that
      exists, or using one that does not, is undefined. *)
  Definition kvacant {A} (w : kworld) (x : option A) : kres unit :=
    match x with Some _ => KUB (k_log w) | None => KOk tt end.
  Definition kdo (self : kworld -> kcall -> kres kworld) (k : nat) (w : kworld) (c : kcall) : kres kworld :=
    match c with
    | KMgr g n => kbind (kvacant w (k_mgr w g)) (fun _ => KOk (put_mgr w g (Some (repeat None n, O))))
    | KMgrCopy g h =>
      kbind (kvacant w (k_mgr w g)) (fun _ =>
      kbind (kneed w (k_mgr w h)) (fun t => KOk (put_mgr w g (Some t))))
    | KMgrAssign g h =>                    (* of the same type: manager<Sources> *)
      kbind (kneed w (k_mgr w g)) (fun '(old, _) =>
      kbind (kneed w (k_mgr w h)) (fun '(tab, cnt) =>
      if (length old =? length tab)%nat then KOk (put_mgr w g (Some (tab, cnt))) else KUB (k_log w)))
    | KMgrEnd g => kbind (kneed w (k_mgr w g)) (fun _ => KOk (put_mgr w g None))
    | KMod a d g =>
      kbind (kvacant w (k_mod w a)) (fun _ =>
      kbind (kneed w (k_mgr w g)) (fun '(tab, cnt) =>
      kbind (klift (k_log w) (add_module tab cnt a)) (fun t =>
      KOk (put_mod (put_mgr w g (Some t)) a (Some (d, g))))))
    | KModCopy a b =>
      kbind (kvacant w (k_mod w a)) (fun _ =>
      kbind (kneed w (k_mod w b)) (fun x => KOk (put_mod w a (Some x))))
    | KModEnd a =>
      kbind (kneed w (k_mod w a)) (fun '(_, g) =>
      kbind (kneed w (k_mgr w g)) (fun '(tab, cnt) =>
      kbind (klift (k_log w) (remove_from tab cnt 0 cnt a)) (fun t =>
      KOk (put_mod (put_mgr w g (Some t)) a None))))
    | KPoint a g => kbind (kneed w (k_mod w a)) (fun '(d, _) => KOk (put_mod w a (Some (d, g))))
    | KSend a v =>                         (* distribute (339-348) *)
      kbind (kneed w (k_mod w a)) (fun '(d, g) =>
      kbind (kneed w (k_mgr w g)) (fun _ =>
      let bs := enc (md_sends d) v in
      kbind (kbody_run self (hook (k_log w) g (kid d) bs) (kemit w (KHook g (kid d) bs))) (fun w1 =>
      let bs1 := leaves (k_log w1) g (kid d) bs in
      if (length bs1 =? length bs)%nat then kloop self g (inl a) bs1 k 0 w1 else KUB (k_log w1))))
    | KMgrSend g D v => kloop self g (inr D) (enc D v) k 0 w
    end.
  Fixpoint krun (fuel : nat) (w : kworld) (c : kcall) : kres kworld :=
    match fuel with
    | O => KFuel
    | S f => kbind (kdo (krun f) f (kemit w (KBegin c)) c) (fun w1 => KOk (kemit w1 (KEnd c)))
    end.

  Fixpoint krun_all (fuel : nat) (w : kworld) (l : list kcall) : kres kworld :=
    match l with
    | [] => KOk w
    | c :: rest => kbind (krun fuel w c) (fun w' => krun_all fuel w' rest)
    end.
End MedNet.
