(** Model of include/xitren/comm/values/observable.hpp and observed.hpp. *)
From Verif Require Export ObsArray.

(** The value type T: an integer type of the given width. *)
Record ity := { i_bits : Z; i_signed : bool }.
(** 8, 16, 32 or 64 bits: the built-in integer types of the modelled target. *)
Definition ity_ok (t : ity) : Prop :=
  i_bits t = 8 \/ i_bits t = 16 \/ i_bits t = 32 \/ i_bits t = 64.

(** Conversion to an integer type: modulo 2^width (C++20). *)
Definition conv (t : ity) (x : Z) : Z :=
  if i_signed t then (x + 2 ^ (i_bits t - 1)) mod 2 ^ i_bits t - 2 ^ (i_bits t - 1)
  else x mod 2 ^ i_bits t.
Definition lo (t : ity) : Z := if i_signed t then - 2 ^ (i_bits t - 1) else 0.
Definition hi (t : ity) : Z := if i_signed t then 2 ^ (i_bits t - 1) - 1 else 2 ^ i_bits t - 1.

(** Usual arithmetic conversions of a T and an int: narrower types promote to
    int, otherwise the result has T's type. *)
Definition common (t : ity) : ity :=
  if i_bits t <? 32 then {| i_bits := 32; i_signed := true |} else t.

(** a + b evaluated in type [c]: undefined on signed overflow. *)
Definition arith (c : ity) (x : Z) : res Z :=
  if i_signed c then
    if (lo c <=? x) && (x <=? hi c) then Ok x else UB
  else Ok (conv c x).

(** The operators (values/observable.hpp:44-50, 60-66, 76-82, 92-98, 108-114,
    124-130, 140-146; the dynamic class repeats them at 290-296, 306-312, 322-328,
    338-344, 354-360, 370-376, 386-392).  The volatile overloads call a
    non-volatile member and do not compile if used; not modelled. *)
Inductive vop :=
| Assign (v : Z)   (* operator=(observable_type) *)
| AddEq (n : Z)    (* operator+=(int) *)
| SubEq (n : Z)    (* operator-=(int) *)
| PreInc | PreDec | PostInc | PostDec.

(** std::atomic<T>::fetch_add/fetch_sub/store: the argument is converted to T, the
    stored result wraps (also for signed T). *)
Definition apply_atomic (t : ity) (x : Z) (o : vop) : Z :=
  match o with
  | Assign v => conv t v
  | AddEq n => conv t (x + conv t n)
  | SubEq n => conv t (x - conv t n)
  | PreInc | PostInc => conv t (x + conv t 1)
  | PreDec | PostDec => conv t (x - conv t 1)
  end.

(** [ret]: the value passed to notify_observers and returned, from the old value
    [x] returned by the atomic operation, converted back to T where it is bound
    to [observable_type const&] and returned as [observable_type]. *)
Definition published (t : ity) (x : Z) (o : vop) : res Z :=
  match o with
  | Assign v => Ok (conv t v)                                     (* 140-146 *)
  | AddEq n => r <- arith (common t) (x + n) ;; Ok (conv t r)     (* fetch_add(op) + op *)
  | SubEq n => r <- arith (common t) (x - n) ;; Ok (conv t r)     (* fetch_sub(op) - op *)
  | PreInc => r <- arith (common t) (x + 1) ;; Ok (conv t r)      (* fetch_add(1) + 1 *)
  | PreDec => r <- arith (common t) (x + 1) ;; Ok (conv t r)      (* line 95: fetch_sub(1) + 1 *)
  | PostInc | PostDec => Ok x                                     (* 44-50, 60-66 *)
  end.

(** Calls on a value observable. *)
Inductive vcall :=
| VAdd (o : addr) | VRemove (o : addr) | VClear | VNotify (n : Z) | VOp (o : vop).
Inductive vres := RErr (e : err) | RVal (z : Z) | RUnit.
(** A callback given to on_update (observed.hpp:35-39): it returns or calls the
    observable and goes on depending on the result. *)
Inductive vbody := VReturn | VDo (c : vcall) (k : vres -> vbody).

(** Visible events: the atomic update happened; observed [o] got [n]
    (observed.hpp:74-81: stored, then the callback entered); disconnect; a call
    returned. *)
Inductive vev :=
| Applied (o : vop)
| Store (o : addr) (n : Z)
| VDisc (o : addr)
| VRet (c : vcall) (r : vres).

Section Values.
  Variable t : ity.
  Variable Max : Z.
  Variable on_update : list vev -> addr -> Z -> vbody.
  Variable on_disc : list vev -> addr -> vbody.

  (** The atomic, observers_, count_ (values/observable.hpp:23,245-249), the
      observeds' own atomics (observed.hpp:23) and the events. *)
  Record vworld := VW { v_val : Z; v_slots : list ptr; v_cnt : nat;
                        v_mirror : addr -> Z; v_log : list vev }.
  Definition vemit (w : vworld) (e : vev) : vworld :=
    VW (v_val w) (v_slots w) (v_cnt w) (v_mirror w) (v_log w ++ [e]).

  (** Construction (158): the atomic is value-initialised (C++20); the observeds
      exist beforehand with contents [m]. *)
  Definition vfresh (m : addr -> Z) : vworld := VW 0 (fresh_slots Max) 0 m [].

  (** value() (30-34). *)
  Definition value (w : vworld) : Z := v_val w.

  Definition set_mirror (m : addr -> Z) (o : addr) (n : Z) : addr -> Z :=
    fun x => if Pos.eqb x o then n else m x.

  Fixpoint vbody_run (step : vworld -> vcall -> res (vworld * vres)) (b : vbody) (w : vworld)
    : res vworld :=
    match b with
    | VReturn => Ok w
    | VDo c k => ' (w', r) <- step w c ;; vbody_run step (k r) w'
    end.

  (** item->notification(this, n) (observed.hpp:58-62,74-81) through slot [i]. *)
  Definition vcall_data (step : vworld -> vcall -> res (vworld * vres)) (n : Z) (i : nat) (w : vworld)
    : res vworld :=
    p <- slot (v_slots w) i ;;
    match p with
    | None => UB
    | Some o => vbody_run step (on_update (v_log w) o n)
                  (vemit (VW (v_val w) (v_slots w) (v_cnt w) (set_mirror (v_mirror w) o n) (v_log w))
                         (Store o n))
    end.

  Definition vcall_disc (step : vworld -> vcall -> res (vworld * vres)) (i : nat) (w : vworld)
    : res vworld :=
    p <- slot (v_slots w) i ;;
    match p with
    | None => UB
    | Some o => vbody_run step (on_disc (v_log w) o) (vemit w (VDisc o))
    end.

  Fixpoint vloop (f : nat -> vworld -> res vworld) (i k : nat) (w : vworld) : res vworld :=
    match k with
    | O => Ok w
    | S k' => w' <- f i w ;; vloop f (S i) k' w'
    end.

  (** notify_observers (230-239): no recursion guard. *)
  Definition vnotify (step : vworld -> vcall -> res (vworld * vres)) (n : Z) (w : vworld)
    : res (vworld * err) :=
    if (max_observers Max <? v_cnt w)%nat then Ok (w, internal_data_broken)
    else w1 <- vloop (vcall_data step n) 0 (v_cnt w) w ;; Ok (w1, ok).

  (** One call; [fuel] bounds the nesting of calls from callbacks. *)
  Fixpoint vrun (fuel : nat) (w : vworld) (c : vcall) : res (vworld * vres) :=
    match fuel with
    | O => Fuel
    | S f =>
      ' (w1, r) <-
        match c with
        | VAdd o =>                                        (* 173-184 *)
          ' (a, n, e) <- add_observer Max (v_slots w) (v_cnt w) o ;;
          Ok (VW (v_val w) a n (v_mirror w) (v_log w), RErr e)
        | VRemove o =>                                     (* 194-208 *)
          ' (a, n, e) <- remove_observer Max (v_slots w) (v_cnt w) o ;;
          Ok (VW (v_val w) a n (v_mirror w) (v_log w), RErr e)
        | VClear =>                                        (* 213-220; destructor 163 *)
          w1 <- vloop (vcall_disc (vrun f)) 0 (v_cnt w) w ;;
          Ok (VW (v_val w1) (v_slots w1) 0 (v_mirror w1) (v_log w1), RUnit)
        | VNotify n =>                                     (* 230-239 *)
          ' (w1, e) <- vnotify (vrun f) (conv t n) w ;; Ok (w1, RErr e)
        | VOp o =>                                         (* 36-146 *)
          let w0 := vemit (VW (apply_atomic t (v_val w) o) (v_slots w) (v_cnt w) (v_mirror w) (v_log w))
                          (Applied o) in
          p <- published t (v_val w) o ;;
          ' (w1, _) <- vnotify (vrun f) p w0 ;; Ok (w1, RVal p)
        end ;;
      Ok (vemit w1 (VRet c r), r)
    end.

  Fixpoint vrun_all (fuel : nat) (w : vworld) (l : list vcall) : res vworld :=
    match l with
    | [] => Ok w
    | c :: rest => ' (w', _) <- vrun fuel w c ;; vrun_all fuel w' rest
    end.
End Values.

(** ** values::observable<T,0>, values/observable.hpp:269-500 *)
(** std::remove over a whole vector: the elements that differ move down, the tail
    keeps what it held; the second component is the returned iterator's index. *)
Definition vec_remove (l : list addr) (o : addr) : res (list ptr * nat) :=
  std_remove (map Some l) (length l) o.

Fixpoint unwrap (l : list ptr) : res (list addr) :=
  match l with
  | [] => Ok []
  | Some o :: rest => r <- unwrap rest ;; Ok (o :: r)
  | None :: _ => UB
  end.

(** The callbacks may use the observable.  std::vector: emplace_back and clear
    invalidate the iterators the range-for holds (at least the end iterator);
    std::remove does not.  [dc_ver] counts invalidations. *)
Record dvc := DVC { dc_val : Z; dc_obs : list addr; dc_ver : nat; dc_mirror : addr -> Z; dc_log : list vev }.
Definition dcfresh (m : addr -> Z) : dvc := DVC 0 [] 0 m [].
Definition dcemit (w : dvc) (e : vev) : dvc :=
  DVC (dc_val w) (dc_obs w) (dc_ver w) (dc_mirror w) (dc_log w ++ [e]).

Section DynCallbacks.
  Variable t : ity.
  Variable on_update : list vev -> addr -> Z -> vbody.
  Variable on_disc : list vev -> addr -> vbody.

  Fixpoint dcbody_run (step : dvc -> vcall -> res (dvc * vres)) (b : vbody) (w : dvc) : res dvc :=
    match b with
    | VReturn => Ok w
    | VDo c k => ' (w', r) <- step w c ;; dcbody_run step (k r) w'
    end.

  (** One round of the range-for: the element the iterator is at is read, its member
      called (observed.hpp:58-62,74-81 or 66), and the iterator advanced, for which it
      must still be valid. *)
  Definition dc_round (enter : dvc -> addr -> dvc) (cb : list vev -> addr -> vbody)
             (step : dvc -> vcall -> res (dvc * vres)) (i : nat) (w : dvc) : res dvc :=
    match nth_error (dc_obs w) i with
    | None => UB
    | Some o =>
      w' <- dcbody_run step (cb (dc_log w) o) (enter w o) ;;
      if (dc_ver w' =? dc_ver w)%nat then Ok w' else UB
    end.

  Fixpoint dc_loop (f : nat -> dvc -> res dvc) (i k : nat) (w : dvc) : res dvc :=
    match k with
    | O => Ok w
    | S k' => w' <- f i w ;; dc_loop f (S i) k' w'
    end.

  (** notify_observers (472-479). *)
  Definition dc_notify (step : dvc -> vcall -> res (dvc * vres)) (n : Z) (w : dvc) : res dvc :=
    dc_loop (dc_round (fun w o => dcemit (DVC (dc_val w) (dc_obs w) (dc_ver w)
                                              (set_mirror (dc_mirror w) o n) (dc_log w)) (Store o n))
                      (fun log o => on_update log o n) step) 0 (length (dc_obs w)) w.

  Fixpoint dcrun (fuel : nat) (w : dvc) (c : vcall) : res (dvc * vres) :=
    match fuel with
    | O => Fuel
    | S f =>
      ' (w1, r) <-
        match c with
        | VAdd o =>                                          (* 419-428, contains 494-499 *)
          if existsb (Pos.eqb o) (dc_obs w) then Ok (w, RErr already_contains)
          else Ok (DVC (dc_val w) (dc_obs w ++ [o]) (S (dc_ver w)) (dc_mirror w) (dc_log w), RErr ok)
        | VRemove o =>                                       (* 438-450 *)
          if (length (dc_obs w) =? 0)%nat then Ok (w, RErr not_found)
          else
            ' (a, it) <- vec_remove (dc_obs w) o ;;
            l <- unwrap a ;;
            Ok (DVC (dc_val w) l (dc_ver w) (dc_mirror w) (dc_log w),
                RErr (if negb (it =? length (dc_obs w))%nat then ok else not_found))
        | VClear =>                                          (* 455-462 *)
          w1 <- dc_loop (dc_round (fun w o => dcemit w (VDisc o)) on_disc (dcrun f))
                        0 (length (dc_obs w)) w ;;
          Ok (DVC (dc_val w1) [] (S (dc_ver w1)) (dc_mirror w1) (dc_log w1), RUnit)
        | VNotify n =>                                       (* 472-479 *)
          w1 <- dc_notify (dcrun f) (conv t n) w ;; Ok (w1, RErr ok)
        | VOp o =>                                           (* 282-392 *)
          p <- published t (dc_val w) o ;;
          w1 <- dc_notify (dcrun f) p
                  (dcemit (DVC (apply_atomic t (dc_val w) o) (dc_obs w) (dc_ver w) (dc_mirror w) (dc_log w))
                          (Applied o)) ;;
          Ok (w1, RVal p)
        end ;;
      Ok (dcemit w1 (VRet c r), r)
    end.

  Fixpoint dcrun_all (fuel : nat) (w : dvc) (l : list vcall) : res dvc :=
    match l with
    | [] => Ok w
    | c :: rest => ' (w', _) <- dcrun fuel w c ;; dcrun_all fuel w' rest
    end.
End DynCallbacks.

(** ** Threads sharing one value observable.
    Each operator is one atomic read-modify-write of the value followed by one
    atomic store per registered observed; steps of different threads interleave.
    The set of registered observeds [obs] does not change meanwhile (count_ and
    observers_ are not atomic, so changing it concurrently would be a data race). *)
Record thread := Thread { th_prog : list vop; th_pending : list (addr * Z) }.
Record cworld := CW { c_val : Z; c_mirror : addr -> Z; c_threads : list thread;
                      c_published : list Z }.

Fixpoint set_thread (l : list thread) (i : nat) (x : thread) : list thread :=
  match l, i with
  | [], _ => []
  | _ :: rest, O => x :: rest
  | y :: rest, S j => y :: set_thread rest j x
  end.

(** Thread [i] makes one step; a finished (or non-existing) thread does nothing. *)
Definition cstep (t : ity) (obs : list addr) (w : cworld) (i : nat) : res cworld :=
  match nth_error (c_threads w) i with
  | None => Ok w
  | Some th =>
    match th_pending th with
    | (o, n) :: rest =>                                    (* observed.hpp:77 *)
      Ok (CW (c_val w) (set_mirror (c_mirror w) o n)
             (set_thread (c_threads w) i (Thread (th_prog th) rest)) (c_published w))
    | [] =>
      match th_prog th with
      | [] => Ok w
      | op :: rest =>                                      (* 36-146 *)
        p <- published t (c_val w) op ;;
        Ok (CW (apply_atomic t (c_val w) op) (c_mirror w)
               (set_thread (c_threads w) i (Thread rest (map (fun o => (o, p)) obs)))
               (c_published w ++ [p]))
      end
    end
  end.

Fixpoint crun (t : ity) (obs : list addr) (w : cworld) (sched : list nat) : res cworld :=
  match sched with
  | [] => Ok w
  | i :: rest => w' <- cstep t obs w i ;; crun t obs w' rest
  end.

Definition cstart (v : Z) (m : addr -> Z) (progs : list (list vop)) : cworld :=
  CW v m (map (fun p => Thread p []) progs) [].
Definition finished (w : cworld) : Prop :=
  forall th, In th (c_threads w) -> th_prog th = [] /\ th_pending th = [].
