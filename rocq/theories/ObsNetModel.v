(** Several observables comm::observable<T,true,Max> (include/xitren/comm/observer.hpp:65-195)
    side by side: construction, copying, destruction, and callbacks that may call any of
    them.  The class declares a default constructor (78) and a virtual destructor (83) and
    nothing else, so the compiler supplies a copy constructor and a copy assignment that
    copy the members observers_, count_ and inside (169-177) as they are. *)
From Verif Require Export ObsArray.

(** Calls; observables are identified by their address. *)
Inductive ncall (V : Type) :=
| NMake (s : addr)          (* observable s;       (78)  *)
| NCopy (a s : addr)        (* observable s = a;         *)
| NAssign (a s : addr)      (* s = a;                    *)
| NDestroy (s : addr)       (* the end of s        (83)  *)
| NAdd (s o : addr)         (* s.add_observer(o)   (93)  *)
| NRemove (s o : addr)      (* s.remove_observer(o) (114) *)
| NClear (s : addr)         (* s.clear_observers() (133) *)
| NNotify (s : addr) (v : V). (* s.notify_observers(v) (150) *)
Arguments NMake {V} s. Arguments NCopy {V} a s. Arguments NAssign {V} a s. Arguments NDestroy {V} s.
Arguments NAdd {V} s o. Arguments NRemove {V} s o. Arguments NClear {V} s. Arguments NNotify {V} s v.

(** Callback bodies, as in ObserverModel. *)
Inductive nbody (V : Type) :=
| NReturn
| NDo (c : ncall V) (k : err -> nbody V).
Arguments NReturn {V}. Arguments NDo {V} c k.

(** Visible: a notification of [s] goes to its observers (is not refused); observer [o]'s
    data() or disconnect() is entered; a call returned. *)
Inductive nev (V : Type) :=
| NEnter (s : addr) (v : V)
| NData (s o : addr) (v : V)
| NDisc (s o : addr)
| NRet (c : ncall V) (e : err).
Arguments NEnter {V} s v. Arguments NData {V} s o v. Arguments NDisc {V} s o. Arguments NRet {V} c e.

(** observers_, count_, inside (169-177). *)
Record cell := Cell { k_slots : list ptr; k_cnt : nat; k_inside : bool }.

Section Net.
  Variable V : Type.
  (** The template argument of the observable at each address. *)
  Variable Max : addr -> Z.
  Variable on_data : list (nev V) -> addr -> addr -> V -> nbody V.
  Variable on_disc : list (nev V) -> addr -> addr -> nbody V.

  (** The objects that exist, and the events so far. *)
  Record net := Net { n_cell : addr -> option cell; n_log : list (nev V) }.
  Definition nothing : net := Net (fun _ => None) [].

  Definition note (w : net) (e : nev V) : net := Net (n_cell w) (n_log w ++ [e]).
  Definition place (w : net) (s : addr) (x : option cell) : net :=
    Net (fun a => if Pos.eqb a s then x else n_cell w a) (n_log w).
  (** Access to an object; undefined if there is none. *)
  Definition at_ (w : net) (s : addr) : res cell :=
    match n_cell w s with Some x => Ok x | None => UB end.

  Fixpoint nrun_body (step : net -> ncall V -> res (net * err)) (b : nbody V) (w : net) : res net :=
    match b with
    | NReturn => Ok w
    | NDo c k => ' (w', e) <- step w c ;; nrun_body step (k e) w'
    end.

  (** One round of the loops (136-138, 158-160); a null pointer cannot be called. *)
  Definition nround (mk : addr -> nev V) (cb : list (nev V) -> addr -> nbody V)
             (step : net -> ncall V -> res (net * err)) (s : addr) (i : nat) (w : net) : res net :=
    x <- at_ w s ;;
    p <- slot (k_slots x) i ;;
    match p with
    | None => UB
    | Some o => nrun_body step (cb (n_log w) o) (note w (mk o))
    end.
  Fixpoint nloop (f : nat -> net -> res net) (i k : nat) (w : net) : res net :=
    match k with
    | O => Ok w
    | S k' => w' <- f i w ;; nloop f (S i) k' w'
    end.

  (** clear_observers (133-140): everybody is disconnected, then count_ = 0. *)
  Definition nclear (step : net -> ncall V -> res (net * err)) (s : addr) (w : net) : res net :=
    x <- at_ w s ;;
    w1 <- nloop (nround (NDisc s) (fun log o => on_disc log s o) step s) 0 (k_cnt x) w ;;
    x1 <- at_ w1 s ;;
    Ok (place w1 s (Some (Cell (k_slots x1) 0 (k_inside x1)))).

  Fixpoint nrun (fuel : nat) (w : net) (c : ncall V) : res (net * err) :=
    match fuel with
    | O => Fuel
    | S f =>
      ' (w, e) <-
        match c with
        | NMake s =>
          match n_cell w s with
          | Some _ => UB
          | None => Ok (place w s (Some (Cell (fresh_slots (Max s)) 0 false)), ok)
          end
        | NCopy a s =>
          x <- at_ w a ;;
          match n_cell w s with
          | Some _ => UB
          | None => if Max a =? Max s then Ok (place w s (Some x), ok) else UB
          end
        | NAssign a s =>
          x <- at_ w a ;; _ <- at_ w s ;;
          if Max a =? Max s then Ok (place w s (Some x), ok) else UB
        | NDestroy s => w1 <- nclear (nrun f) s w ;; Ok (place w1 s None, ok)
        | NAdd s o =>                               (* 93-104 *)
          x <- at_ w s ;;
          ' (a, n, e) <- add_observer (Max s) (k_slots x) (k_cnt x) o ;;
          Ok (place w s (Some (Cell a n (k_inside x))), e)
        | NRemove s o =>                            (* 114-128 *)
          x <- at_ w s ;;
          ' (a, n, e) <- remove_observer (Max s) (k_slots x) (k_cnt x) o ;;
          Ok (place w s (Some (Cell a n (k_inside x))), e)
        | NClear s => w1 <- nclear (nrun f) s w ;; Ok (w1, ok)
        | NNotify s v =>                            (* 150-163 *)
          x <- at_ w s ;;
          if (max_observers (Max s) <? k_cnt x)%nat then Ok (w, internal_data_broken)
          else if k_inside x then Ok (w, notify_recursion_detected)
          else
            w1 <- nloop (nround (fun o => NData s o v) (fun log o => on_data log s o v) (nrun f) s)
                    0 (k_cnt x)
                    (note (place w s (Some (Cell (k_slots x) (k_cnt x) true))) (NEnter s v)) ;;
            x1 <- at_ w1 s ;;
            Ok (place w1 s (Some (Cell (k_slots x1) (k_cnt x1) false)), ok)
        end ;;
      Ok (note w (NRet c e), e)
    end.

  Fixpoint nrun_all (fuel : nat) (w : net) (l : list (ncall V)) : res net :=
    match l with
    | [] => Ok w
    | c :: t => ' (w', _) <- nrun fuel w c ;; nrun_all fuel w' t
    end.
End Net.
Arguments Net {V}. Arguments n_cell {V}. Arguments n_log {V}. Arguments nothing {V}.
Arguments note {V}. Arguments place {V}. Arguments at_ {V}. Arguments nrun_body {V}.
Arguments nround {V}. Arguments nloop {V}. Arguments nclear {V}. Arguments nrun {V}.
Arguments nrun_all {V}.
