(** comm::manager<Sources> (include/xitren/comm/mediator.hpp:264-392) and its modules used by
    several threads: there is no lock, so every call is a sequence of single reads and writes
    of modules_ and modules_cnt_, in the order of the source, and threads interleave between
    them.  Simplified: the accesses of different threads happen one after the other (in C++
    unsynchronised conflicting accesses are undefined altogether; see [access]); the manager's
    data() and the handlers of the modules return without using the mediator; std::out_of_range
    of at() (315,316,344,345) is not told apart from undefined behaviour. *)
From Verif Require Export MediatorModel.

(** modules_, modules_cnt_ (375-380); the module objects there are, and those of them whose
    own class is not constructed yet or destroyed already: only their base class
    module<Sends, Recvs...> exists (135, 140 run in it). *)
Record gmem := GM { g_tab : list ptr; g_cnt : nat; g_objs : list addr; g_part : list addr }.

(** A message on its way: the call, the sending module, id and bytes (147-153,180; 308-314). *)
Record gmsg := Msg { g_call : mcall; g_snd : option addr; g_id : Z; g_bs : list Z }.

(** Where a thread is: what it does next. *)
Inductive gpc :=
| GIdle
(* the constructor of a module *)
| GNew (a : addr)                      (* base::module is constructed (24,135) *)
| GCount (a : addr)                    (* reads modules_cnt_ in modules_cnt_++ (280) *)
| GBump (a : addr) (v : nat)           (* writes modules_cnt_ there *)
| GPut (a : addr) (v : nat)            (* writes modules_[v] (280) *)
| GBody (a : addr)                     (* the constructor of its own class ends *)
(* the destructor of a module *)
| GOwn (a : addr)                      (* the destructor of its own class ends *)
| GFor (a : addr) (i : nat)            (* reads modules_cnt_ (291) *)
| GCmp (a : addr) (i : nat)            (* reads modules_[i] (292) *)
| GIn (a : addr) (i : nat)             (* reads modules_cnt_ (293) *)
| GNext (a : addr) (i : nat)           (* reads modules_[i + 1] (294) *)
| GShift (a : addr) (i : nat) (x : ptr) (* writes modules_[i] (294) *)
| GZero (a : addr)                     (* reads modules_cnt_ (296) *)
| GNull (a : addr) (v : nat)           (* writes modules_[v] (296) *)
| GLess (a : addr)                     (* reads modules_cnt_ in --modules_cnt_ (297) *)
| GDec (a : addr) (v : nat)            (* writes modules_cnt_ there *)
| GGone (a : addr)                     (* the object ceases to exist *)
(* distribute (339-348), manager::send (308-319) *)
| GHook (m : gmsg)                     (* the manager's data() (342) *)
| GLoop (m : gmsg) (i : nat)           (* reads modules_cnt_ (343; 312) *)
| GAt (m : gmsg) (i : nat)             (* reads modules_[i] and the module's id_ (344; 315) *)
| GCall (m : gmsg) (i : nat)           (* reads modules_[i] again, calls receive (345; 316) *)
| GHand (m : gmsg) (i : nat) (a : addr). (* in the handler of [a] *)

(** Which variable the next step accesses, and whether it writes it. *)
Inductive gplace := GPCount | GPSlot (i : nat).
Definition gaccess (pc : gpc) : option (gplace * bool) :=
  match pc with
  | GIdle | GNew _ | GBody _ | GOwn _ | GGone _ | GHook _ | GHand _ _ _ => None
  | GCount _ | GFor _ _ | GIn _ _ | GZero _ | GLess _ | GLoop _ _ => Some (GPCount, false)
  | GBump _ _ | GDec _ _ => Some (GPCount, true)
  | GCmp _ i | GAt _ i | GCall _ i => Some (GPSlot i, false)
  | GNext _ i => Some (GPSlot (S i), false)
  | GPut _ i | GShift _ i _ | GNull _ i => Some (GPSlot i, true)
  end.

Section MedShare.
  Variable hash : string -> Z.
  Variable enc : mty -> Z -> list Z.
  Variable desc : addr -> mdesc.

  Definition gbegin (c : mcall) : gpc :=
    match c with
    | Construct a => GNew a
    | Destroy a => GOwn a
    | ModSend a v => GHook (Msg c (Some a) (id_of hash desc a) (enc (md_sends (desc a)) v))
    | MgrSend D v => GLoop (Msg c None (hash (ty_name D)) (enc D v)) 0
    end.

  (** receiver_converter and convert_field (191-250): which data() is called, and with what.
      Simplified: the exception thrown on a wrong size counts as no data() called (the
      statements about messages exclude it: [good_send], [each_returns]). *)
  Fixpoint grecv (recvs : list mty) (id : Z) (bs : list Z) : res (option (mty * list Z)) :=
    match recvs with
    | [] => Ok None
    | D :: rest =>
      if id =? hash (ty_name D) then
        if negb (ty_size D =? length bs)%nat then Ok None
        else got <- read_bytes (ty_size D) bs ;; Ok (Some (D, got))
      else grecv rest id bs
    end.

  (** The objects a message is read from: the sender must exist (342,344,345). *)
  Definition gsender (m : gmem) (s : option addr) : res unit :=
    match s with
    | None => Ok tt
    | Some a => if in_dec Pos.eq_dec a (g_objs m) then Ok tt else UB
    end.
  (** The module a slot points to: it must exist. *)
  Definition gmodule (m : gmem) (i : nat) : res addr :=
    x <- slot (g_tab m) i ;;
    match x with
    | None => UB
    | Some a => if in_dec Pos.eq_dec a (g_objs m) then Ok a else UB
    end.

  (** One step: shared variables, where the thread is then, what was seen.  data() of a module
      whose own class does not exist (yet or any more) is a pure virtual function (114-116).
      Simplified: 297 with a count of 0 wraps in the source. *)
  Definition gstep (m : gmem) (pc : gpc) : res (gmem * gpc * list mev) :=
    let tab := g_tab m in let cnt := g_cnt m in let objs := g_objs m in let part := g_part m in
    match pc with
    | GIdle => Ok (m, GIdle, [])
    | GNew a => Ok (GM tab cnt (objs ++ [a]) (part ++ [a]), GCount a, [])
    | GCount a => Ok (m, GBump a cnt, [])
    | GBump a v => Ok (GM tab (S v) objs part, GPut a v, [])
    | GPut a v => tab' <- put_slot tab v (Some a) ;; Ok (GM tab' cnt objs part, GBody a, [])
    | GBody a => Ok (GM tab cnt objs (remove_first a part), GIdle, [End (Construct a)])
    | GOwn a => Ok (GM tab cnt objs (part ++ [a]), GFor a 0, [])
    | GFor a i => Ok (m, if (i <? cnt)%nat then GCmp a i else GGone a, [])
    | GCmp a i => x <- slot tab i ;; Ok (m, if points_to x a then GIn a i else GFor a (S i), [])
    | GIn a i => Ok (m, if (cnt =? 0)%nat || (S i <? cnt)%nat then GNext a i else GZero a, [])
    | GNext a i => x <- slot tab (S i) ;; Ok (m, GShift a i x, [])
    | GShift a i x => tab' <- put_slot tab i x ;; Ok (GM tab' cnt objs part, GIn a (S i), [])
    | GZero a => Ok (m, GNull a cnt, [])
    | GNull a v => tab' <- put_slot tab v None ;; Ok (GM tab' cnt objs part, GLess a, [])
    | GLess a => Ok (m, GDec a cnt, [])
    | GDec a v => if (v =? 0)%nat then UB else Ok (GM tab (v - 1) objs part, GGone a, [])
    | GGone a => Ok (GM tab cnt (remove_first a objs) (remove_first a part), GIdle, [End (Destroy a)])
    | GHook s => _ <- gsender m (g_snd s) ;; Ok (m, GLoop s 0, [Hook (g_id s) (g_bs s)])
    | GLoop s i =>
      if (i <? cnt)%nat then Ok (m, GAt s i, []) else Ok (m, GIdle, [End (g_call s)])
    | GAt s i =>
      a <- gmodule m i ;; _ <- gsender m (g_snd s) ;;
      Ok (m, if id_of hash desc a =? g_id s then GLoop s (S i) else GCall s i, [])
    | GCall s i =>
      a <- gmodule m i ;; _ <- gsender m (g_snd s) ;;
      r <- grecv (md_recvs (desc a)) (g_id s) (g_bs s) ;;
      match r with
      | None => Ok (m, GLoop s (S i), [])
      | Some (D, got) => if in_dec Pos.eq_dec a part then UB else Ok (m, GHand s i a, [Recv a D got])
      end
    | GHand s i a => Ok (m, GLoop s (S i), [])
    end.

  (** Thread [t] and the calls it still has to make; what happened, and in which thread. *)
  Record gthread := GTh { g_calls : list mcall; g_pc : gpc }.
  Record gworld := GW { g_mem : gmem; g_thr : nat -> gthread; g_log : list (nat * mev) }.
  Definition gput (f : nat -> gthread) (t : nat) (x : gthread) : nat -> gthread :=
    fun a => if (a =? t)%nat then x else f a.

  (** Thread [t] moves: enters its next call or does the next step of the call it is in. *)
  Definition gmove (w : gworld) (t : nat) : res gworld :=
    let th := g_thr w t in
    match g_pc th with
    | GIdle =>
      match g_calls th with
      | [] => Ok w
      | c :: rest => Ok (GW (g_mem w) (gput (g_thr w) t (GTh rest (gbegin c))) (g_log w ++ [(t, Begin c)]))
      end
    | pc =>
      ' (m, pc', es) <- gstep (g_mem w) pc ;;
      Ok (GW m (gput (g_thr w) t (GTh (g_calls th) pc')) (g_log w ++ map (pair t) es))
    end.
  Fixpoint grun (w : gworld) (s : list nat) : res gworld :=
    match s with
    | [] => Ok w
    | t :: rest => w' <- gmove w t ;; grun w' rest
    end.

  (** The threads start with a manager in the state [m]. *)
  Definition gstart (m : gmem) (progs : nat -> list mcall) : gworld :=
    GW m (fun t => GTh (progs t) GIdle) [].
End MedShare.
