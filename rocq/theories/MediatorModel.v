(** Model of include/xitren/comm/mediator.hpp. *)
From Coq Require Export String.
From Verif Require Export ObsArray.

(** A message type: its typeid name and its size.  Types are trivially copyable
    (they live in a union with a byte array, mediator.hpp:257-261,387-391). *)
Record mty := MTy { ty_name : string; ty_size : nat }.
(** module<Sends, Recvs...> (124-125). *)
Record mdesc := MDesc { md_sends : mty; md_recvs : list mty }.

(** A module's constructor (135) and destructor (140), module::send(field) (147-153),
    manager::send(data) (308-319).  Values are numbers; [enc] below gives their bytes. *)
Inductive mcall :=
| Construct (a : addr) | Destroy (a : addr) | ModSend (a : addr) (v : Z) | MgrSend (D : mty) (v : Z).

(** Visible events: a call starts, the manager's data(id, ptr, sz) (328-330) starts,
    the handler data(D const&) of module [a] starts on an object with the given bytes,
    a call ends, a call is left by an exception. *)
Inductive mev :=
| Begin (c : mcall)
| Hook (id : Z) (bs : list Z)
| Recv (a : addr) (D : mty) (bs : list Z)
| End (c : mcall)
| Threw (c : mcall).

(** The module objects in existence after a log, in order of construction. *)
Fixpoint remove_first (a : addr) (l : list addr) : list addr :=
  match l with
  | [] => []
  | x :: rest => if Pos.eq_dec x a then rest else x :: remove_first a rest
  end.
Definition reg_step (l : list addr) (e : mev) : list addr :=
  match e with
  | End (Construct a) => l ++ [a]
  | End (Destroy a) => remove_first a l
  | _ => l
  end.
Definition registered (log : list mev) : list addr := fold_left reg_step log [].

(** A handler returns, throws, or calls something and goes on depending on all that has
    happened until then; a call left by an exception is seen as such in the log, and
    the handler catches it or throws in turn. *)
Inductive mbody := MReturn | MThrow | MDo (c : mcall) (k : list mev -> mbody).

(** modules_, modules_cnt_ (375-380).  [None]: uninitialised or null. *)
Record mworld := MW { m_tab : list ptr; m_cnt : nat; m_log : list mev }.

(** As [res], but undefined behaviour keeps the events that led to it; [MExc]: left by
    an exception. *)
Inductive mres (A : Type) := MOk (a : A) | MExc (w : mworld) | MUB (log : list mev) | MFuel.
Arguments MOk {A} a. Arguments MExc {A} w. Arguments MUB {A} log. Arguments MFuel {A}.
Definition mbind {A B} (x : mres A) (f : A -> mres B) : mres B :=
  match x with MOk a => f a | MExc w => MExc w | MUB l => MUB l | MFuel => MFuel end.
Definition lift {A} (log : list mev) (x : res A) : mres A :=
  match x with Ok a => MOk a | UB => MUB log | Fuel => MFuel end.

Section Mediator.
  (** std::hash<std::string>, arbitrary. *)
  Variable hash : string -> Z.
  (** Object representation of a value of a type. *)
  Variable enc : mty -> Z -> list Z.
  (** The class of each module object. *)
  Variable desc : addr -> mdesc.
  (** manager<Sources> (264). *)
  Variable Sources : nat.
  (** The overrides of receiver_impl<D>::data (114-116). *)
  Variable handler : list mev -> addr -> mty -> list Z -> mbody.
  (** The override of manager::data (328-330). *)
  Variable hook : list mev -> Z -> list Z -> mbody.

  (** module::id_ (24,31,135). *)
  Definition id_of (a : addr) : Z := hash (ty_name (md_sends (desc a))).

  Definition mfresh : mworld := MW (repeat None Sources) 0 [].
  Definition memit (w : mworld) (e : mev) : mworld := MW (m_tab w) (m_cnt w) (m_log w ++ [e]).

  (** add_module (277-281): no check; the index is out of the array when full. *)
  Definition add_module (tab : list ptr) (cnt : nat) (a : addr) : res (list ptr * nat) :=
    tab' <- put_slot tab cnt (Some a) ;; Ok (tab', S cnt).

  (** Inner loop of remove_module (293-295), [k] iterations from index [i]. *)
  Fixpoint shift_down (tab : list ptr) (i k : nat) : res (list ptr) :=
    match k with
    | O => Ok tab
    | S k' => x <- slot tab (S i) ;; tab' <- put_slot tab i x ;; shift_down tab' (S i) k'
    end.

  (** remove_module (288-301), [k] iterations of the outer loop left. *)
  Fixpoint remove_from (tab : list ptr) (cnt i k : nat) (a : addr) : res (list ptr * nat) :=
    match k with
    | O => Ok (tab, cnt)
    | S k' =>
      x <- slot tab i ;;
      if points_to x a then
        tab1 <- shift_down tab i (cnt - 1 - i) ;;
        tab2 <- put_slot tab1 cnt None ;;                (* 296: modules_[modules_cnt_] = 0 *)
        Ok (tab2, (cnt - 1)%nat)
      else remove_from tab cnt (S i) k' a
    end.

  (** The byte copy of convert_field (198-200): [n] bytes from [ptr]. *)
  Fixpoint read_bytes (n : nat) (p : list Z) : res (list Z) :=
    match n, p with
    | O, _ => Ok []
    | S n', b :: p' => r <- read_bytes n' p' ;; Ok (b :: r)
    | S _, [] => UB
    end.

  Fixpoint mbody_run (step : mworld -> mcall -> mres mworld) (b : mbody) (w : mworld) : mres mworld :=
    match b with
    | MReturn => MOk w
    | MThrow => MExc w
    | MDo c k =>
      match step w c with
      | MOk w' | MExc w' => mbody_run step (k (m_log w')) w'
      | MUB l => MUB l
      | MFuel => MFuel
      end
    end.

  (** convert_field (191-203). *)
  Definition convert_field (step : mworld -> mcall -> mres mworld) (a : addr) (D : mty) (bs : list Z)
             (w : mworld) : mres mworld :=
    if negb (ty_size D =? length bs)%nat then MOk w
    else mbind (lift (m_log w) (read_bytes (ty_size D) bs)) (fun got =>
         mbody_run step (handler (m_log w) a D got) (memit w (Recv a D got))).

  (** receiver_converter (214-250; for an empty pack 166 does nothing). *)
  Fixpoint receiver_converter (step : mworld -> mcall -> mres mworld) (a : addr) (recvs : list mty)
           (id : Z) (bs : list Z) (w : mworld) : mres mworld :=
    match recvs with
    | [] => MOk w
    | D :: rest => if id =? hash (ty_name D) then convert_field step a D bs w
                   else receiver_converter step a rest id bs w
    end.

  (** sender.id_ (342,344): the sender must still exist. *)
  Definition sender_read (snd : option addr) (w : mworld) : mres unit :=
    match snd with
    | None => MOk tt
    | Some s => if in_dec Pos.eq_dec s (registered (m_log w)) then MOk tt else MUB (m_log w)
    end.

  (** The loops of distribute (343-347) and manager::send (312-318, [snd] = None): the
      count is read again before each iteration; [k] exceeds the number of iterations.
      out_of_range of at() (314,344) is not told apart from undefined behaviour. *)
  Fixpoint mloop (step : mworld -> mcall -> mres mworld) (snd : option addr) (id : Z) (bs : list Z) (k i : nat)
           (w : mworld) : mres mworld :=
    match k with
    | O => MFuel
    | S k' =>
      if (i <? m_cnt w)%nat then
        mbind (lift (m_log w) (slot (m_tab w) i)) (fun p =>
        match p with
        | None => MUB (m_log w)
        | Some a =>
          mbind (sender_read snd w) (fun _ =>
          if id_of a =? id then mloop step snd id bs k' (S i) w
          else mbind (receiver_converter step a (md_recvs (desc a)) id bs w)
                     (mloop step snd id bs k' (S i)))
        end)
      else MOk w
    end.

  (** One call; [fuel] bounds the nesting of calls from handlers.  That the program
      constructs objects where none exist, and destroys and uses only existing ones, is
      not checked here except where the library itself reads the sender. *)
  Fixpoint mrun (fuel : nat) (w : mworld) (c : mcall) : mres mworld :=
    match fuel with
    | O => MFuel
    | S f =>
      let w0 := memit w (Begin c) in
      match
        match c with
        | Construct a =>
          mbind (lift (m_log w0) (add_module (m_tab w0) (m_cnt w0) a))
                (fun '(tab, cnt) => MOk (MW tab cnt (m_log w0)))
        | Destroy a =>
          mbind (lift (m_log w0) (remove_from (m_tab w0) (m_cnt w0) 0 (m_cnt w0) a))
                (fun '(tab, cnt) => MOk (MW tab cnt (m_log w0)))
        | ModSend a v =>                                   (* distribute (339-348) *)
          let bs := enc (md_sends (desc a)) v in
          mbind (sender_read (Some a) w0) (fun _ =>
          mbind (mbody_run (mrun f) (hook (m_log w0) (id_of a) bs) (memit w0 (Hook (id_of a) bs)))
                (mloop (mrun f) (Some a) (id_of a) bs (S Sources) 0))
        | MgrSend D v =>
          mloop (mrun f) None (hash (ty_name D)) (enc D v) (S Sources) 0 w0
        end
      with
      | MOk w1 => MOk (memit w1 (End c))
      | MExc w1 => MExc (memit w1 (Threw c))
      | MUB l => MUB l
      | MFuel => MFuel
      end
    end.

  (** A program: exceptions that reach it are caught. *)
  Fixpoint mrun_all (fuel : nat) (w : mworld) (l : list mcall) : mres mworld :=
    match l with
    | [] => MOk w
    | c :: rest =>
      match mrun fuel w c with
      | MOk w' | MExc w' => mrun_all fuel w' rest
      | MUB l => MUB l
      | MFuel => MFuel
      end
    end.
End Mediator.

(** manager::convert_field<T> (357-369): [None] is the exception. *)
Definition mgr_convert_field (dec : mty -> list Z -> Z) (T : mty) (bs : list Z) : res (option Z) :=
  if negb (ty_size T =? length bs)%nat then Ok None
  else got <- read_bytes (ty_size T) bs ;; Ok (Some (dec T got)).
