(** More of static_heap.hpp: an on_fail callback that itself uses the heap (160-164,
    293-295), and allocate called from two threads. *)
From Verif Require Export HeapSpec.

(** What the callback does: a number of calls on the heap, each chosen from all the
    calls that have been made until then and their results. *)
Inductive hbody := HReturn | HDo (o : op) (k : list event -> hbody).

Section Callback.
  Variable c : cfg.
  (** The callback that is set, if one is ([h_cb]); which one may depend on the history. *)
  Variable cb : list event -> hbody.

  Fixpoint body_run (call : heap -> list event -> op -> res (heap * list event * Z))
           (h : heap) (t : list event) (b : hbody) : res (heap * list event) :=
    match b with
    | HReturn => Ok (h, t)
    | HDo o k => '(h, t, _) <- call h t o ;; body_run call h t (k t)
    end.

  (** static_heap.hpp:166-301, as [allocate] but running the callback; the request is
      noted in the history, as the call [o], before the callback's own calls. *)
  Definition allocate_cb (call : heap -> list event -> op -> res (heap * list event * Z))
             (h : heap) (t : list event) (o : op) (x_wanted_size : Z) : res (heap * list event * Z) :=
    '(h, ret) <- allocate_core c h (adjust x_wanted_size) ;;
    if (ret =? 0) && h_cb h then
      '(h, t) <- (let h := fire h in let t := t ++ [(o, ret, free_heap_size h)] in body_run call h t (cb t)) ;;
      Ok (h, t, ret)
    else Ok (h, t ++ [(o, ret, free_heap_size h)], ret).

  (** One call.  [fuel] bounds the nesting of callbacks.  [inside]: called from the
      callback; there, on_fail destroys the function object that is running (163), which
      the model counts as undefined. *)
  Fixpoint exec (fuel : nat) (inside : bool) (h : heap) (t : list event) (o : op)
    : res (heap * list event * Z) :=
    match fuel with
    | O => Fuel
    | S f =>
      match o with
      | Alloc n => allocate_cb (exec f true) h t o n
      | Calloc num size =>                                            (* 367-381 *)
          if negb (heap_multiply_will_overflow num size) then
            '(h, t, pv) <- allocate_cb (exec f true) h t o (u64 (num * size)) ;;
            if negb (pv =? 0) then
              m <- memset0 c (h_mem h) pv (u64 (num * size)) ;;
              Ok (set_mem h m, t, pv)
            else Ok (h, t, pv)
          else Ok (h, t ++ [(o, 0, free_heap_size h)], 0)
      | OnFail b =>
          if inside then UB else Ok (on_fail h b, t ++ [(o, 0, free_heap_size h)], 0)
      | Free _ | ResetMin | Write _ _ =>
          '(h, r) <- apply c h o ;; Ok (h, t ++ [(o, r, free_heap_size h)], r)
      end
    end.

  (** A program. *)
  Fixpoint exec_all (fuel : nat) (h : heap) (t : list event) (ops : list op) : res (heap * list event) :=
    match ops with
    | [] => Ok (h, t)
    | o :: rest => '(h, t, _) <- exec fuel false h t o ;; exec_all fuel h t rest
    end.
End Callback.

(** ** Threads *)

(** Where a thread is in allocate: at the start (166); after the search, with
    px_previous_block and px_block in its locals (222); with pv_return computed too
    (231); returned (300).  Each step covers several memory accesses of the code; the
    code has no lock (v_task_suspend_all is empty, 70-76), so threads may interleave
    at least between these steps. *)
Inductive tpc :=
| TStart (n : Z)
| TFound (w prev blk : Z)
| TGot (w prev blk ret : Z)
| TDone (ret : Z).

(** 229-231 *)
Definition take_ret c (h : heap) (prev : Z) : res Z :=
  nx <- ld_next c (h_mem h) prev ;;
  Ok (u64 (heap_protect_block_pointer nx + x_heap_struct_size)).

(** 236-277, with pv_return as a local. *)
Definition take_rest c (h : heap) (prev blk wanted ret : Z) : res (heap * Z) :=
  let m := h_mem h in
  bn <- ld_next c m blk ;;
  m <- st_next c m prev bn ;;
  s <- ld_size c m blk ;;
  m <- (if heap_minimum_block_size <? u64 (s - wanted) then
          let nb := u64 (blk + wanted) in
          m <- st_size c m nb (u64 (s - wanted)) ;;
          m <- st_size c m blk wanted ;;
          pn <- ld_next c m prev ;;
          m <- st_next c m nb pn ;;
          st_next c m prev (heap_protect_block_pointer nb)
        else Ok m) ;;
  s <- ld_size c m blk ;;
  let fr := u64 (h_free h - s) in
  let mn := if fr <? h_min h then fr else h_min h in
  m <- heap_allocate_block c m blk ;;
  m <- st_next c m blk (heap_protect_block_pointer 0) ;;
  Ok (mkHeap m (h_end h) fr mn (u64 (h_allocs h + 1)) (h_frees h) (h_cb h) (h_fired h), ret).

(** 293-295 *)
Definition refuse (h : heap) : heap := if h_cb h then fire h else h.

Definition tstep c (h : heap) (p : tpc) : res (heap * tpc) :=
  match p with
  | TStart n =>
      let w := adjust n in
      if heap_block_size_is_valid w && ((0 <? w) && (w <=? h_free h)) then
        first <- ld_next c (h_mem h) (c_xs c) ;;
        '(prev, blk) <- find_block (walk_fuel c) c (h_mem h) (c_xs c)
                                   (heap_protect_block_pointer first) w ;;
        if negb (blk =? h_end h) then Ok (h, TFound w prev blk) else Ok (refuse h, TDone 0)
      else Ok (refuse h, TDone 0)
  | TFound w prev blk => r <- take_ret c h prev ;; Ok (h, TGot w prev blk r)
  | TGot w prev blk r =>
      '(h, r) <- take_rest c h prev blk w r ;; Ok (if r =? 0 then refuse h else h, TDone r)
  | TDone r => Ok (h, TDone r)
  end.

(** Two threads; the schedule says which one takes the next step. *)
Fixpoint trun c (h : heap) (p q : tpc) (sched : list bool) : res (heap * tpc * tpc) :=
  match sched with
  | [] => Ok (h, p, q)
  | true :: rest => '(h, p) <- tstep c h p ;; trun c h p q rest
  | false :: rest => '(h, q) <- tstep c h q ;; trun c h p q rest
  end.
