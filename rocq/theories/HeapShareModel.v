(** One static_heap used by several threads (include/xitren/allocators/static_heap.hpp).
    v_task_suspend_all and x_task_resume_all are empty (70-76), so nothing keeps the calls
    apart.  Here a call is a sequence of single accesses to the words of uc_heap_ and x_start_
    and to the counters, in the order of the source; the accesses of different threads
    interleave.  Simplified: accesses are taken in some global order (formally they are data
    races already); reads that only feed config_assert, which ignores its argument (78), and
    the dead x_allocated_block_size (271) are left out; the same reading of sizes, pointers and
    UB as in [HeapModel]; compound assignments read their right operand first (C++17); callocate, the statistics and the client's own bytes are left out. *)
From Verif Require Export HeapModel.

(** The members besides the memory: x_free_bytes_remaining_, x_minimum_ever_free_bytes_remaining_
    and the two counters (543-546). *)
Inductive fld := FFree | FMin | FAllocs | FFrees.
Definition get (h : heap) (f : fld) : Z :=
  match f with FFree => h_free h | FMin => h_min h | FAllocs => h_allocs h | FFrees => h_frees h end.
Definition put (h : heap) (f : fld) (v : Z) : heap :=
  match f with
  | FFree => mkHeap (h_mem h) (h_end h) v (h_min h) (h_allocs h) (h_frees h) (h_cb h) (h_fired h)
  | FMin => mkHeap (h_mem h) (h_end h) (h_free h) v (h_allocs h) (h_frees h) (h_cb h) (h_fired h)
  | FAllocs => mkHeap (h_mem h) (h_end h) (h_free h) (h_min h) v (h_frees h) (h_cb h) (h_fired h)
  | FFrees => mkHeap (h_mem h) (h_end h) (h_free h) (h_min h) (h_allocs h) v (h_cb h) (h_fired h)
  end.

Inductive hcall := HAlloc (n : Z) | HFree (p : Z).

(** What a thread still has to do, one access after the other.  [Rd]/[Wr]: a word of memory.
    [End]: px_end_, [Cb]: whether callback_ is set; neither changes.  [Fire]: callback_().
    [Out]: a call returns.  [Spin]: the walk did not end within the bound. *)
Inductive code :=
| Stop
| Spin
| Rd (a : Z) (k : Z -> code)
| Wr (a v : Z) (k : code)
| Get (f : fld) (k : Z -> code)
| Put (f : fld) (v : Z) (k : code)
| End (k : Z -> code)
| Cb (k : bool -> code)
| Fire (k : code)
| Out (c : hcall) (r : Z) (k : code).

Local Notation prot := heap_protect_block_pointer.

(** The walk (217-222). *)
Fixpoint find_code (fuel : nat) (prev blk wanted : Z) (k : Z -> Z -> code) : code :=
  match fuel with
  | O => Spin
  | S f =>
    Rd (blk + 8) (fun s =>
    if s <? wanted then
      Rd blk (fun nx =>
      if negb (nx =? prot 0) then Rd blk (fun nx' => find_code f blk (prot nx') wanted k)
      else k prev blk)
    else k prev blk)
  end.

(** Taking the block: 236-278, after pv_return has been computed. *)
Definition take_code (prev blk wanted : Z) (k : code) : code :=
  Rd blk (fun bn => Wr prev bn (                                       (* 236 *)
  Rd (blk + 8) (fun s =>                                               (* 242 *)
  let rest :=
    Rd (blk + 8) (fun s1 => Get FFree (fun f => Put FFree (u64 (f - s1)) (   (* 263 *)
    Get FFree (fun f1 => Get FMin (fun mn =>                           (* 265 *)
    let fin :=
      Rd (blk + 8) (fun s2 => Wr (blk + 8) (Z.lor s2 heap_block_allocated_bitmask) (   (* 275 *)
      Wr blk (prot 0) (                                                (* 276 *)
      Get FAllocs (fun n => Put FAllocs (u64 (n + 1)) k)))) in         (* 277 *)
    if f1 <? mn then Get FFree (fun f2 => Put FMin f2 fin) else fin))))) in
  if heap_minimum_block_size <? u64 (s - wanted) then
    let nb := u64 (blk + wanted) in                                    (* 247-248 *)
    Rd (blk + 8) (fun s0 => Wr (nb + 8) (u64 (s0 - wanted)) (          (* 253 *)
    Wr (blk + 8) wanted (                                              (* 254 *)
    Rd prev (fun pn => Wr nb pn (                                      (* 257 *)
    Wr prev (prot nb) rest)))))                                        (* 258 *)
  else rest))).

(** allocate (166-301); [k] goes on with the result. *)
Definition alloc_code (fuel : nat) (xs : Z) (n : Z) (k : Z -> code) : code :=
  let w := adjust n in
  let finish ret := Cb (fun cb => if (ret =? 0) && cb then Fire (k ret) else k ret) in   (* 293-295 *)
  if heap_block_size_is_valid w then
    if 0 <? w then
      Get FFree (fun f =>
      if w <=? f then
        Rd xs (fun first =>                                            (* 213-214 *)
        find_code fuel xs (prot first) w (fun prev blk =>
        End (fun e =>                                                  (* 226 *)
        if negb (blk =? e) then
          Rd prev (fun nx =>                                           (* 229-231 *)
          let ret := u64 (prot nx + x_heap_struct_size) in
          take_code prev blk w (finish ret))
        else finish 0)))
      else finish 0)
    else finish 0
  else finish 0.

(** The search in prv_insert_block_into_free_list (433-436). *)
Fixpoint pos_code (fuel : nat) (it blk : Z) (k : Z -> code) : code :=
  match fuel with
  | O => Spin
  | S f => Rd it (fun nx => if prot nx <? blk then Rd it (fun nx' => pos_code f (prot nx') blk k) else k it)
  end.

(** prv_insert_block_into_free_list (425-481). *)
Definition insert_code (fuel : nat) (xs blk0 : Z) (k : code) : code :=
  pos_code fuel xs blk0 (fun it =>
  Rd (it + 8) (fun si =>                                               (* 446 *)
  let second blk :=
    let link := if negb (it =? blk) then Wr it (prot blk) k else k in  (* 476-480 *)
    Rd (blk + 8) (fun sb => Rd it (fun nx =>                           (* 457-458 *)
    if u64 (blk + sb) =? prot nx then
      Rd it (fun nx1 => End (fun e =>                                  (* 459 *)
      if negb (prot nx1 =? e) then
        Rd it (fun nx2 => Rd (prot nx2 + 8) (fun sn => Rd (blk + 8) (fun s1 => Wr (blk + 8) (u64 (s1 + sn)) (   (* 461-462 *)
        Rd it (fun nx3 => Rd (prot nx3) (fun nn => Wr blk nn link))))))              (* 463-464 *)
      else End (fun e => Wr blk (prot e) link)))                       (* 466 *)
    else Rd it (fun nx1 => Wr blk nx1 link))) in                       (* 469 *)
  if u64 (it + si) =? blk0 then
    Rd (blk0 + 8) (fun sb => Rd (it + 8) (fun s0 => Wr (it + 8) (u64 (s0 + sb)) (second it)))   (* 447-448 *)
  else second blk0)).

(** deallocate (304-343). *)
Definition free_code (fuel : nat) (xs pv : Z) (k : code) : code :=
  if pv =? 0 then k else
  let link := u64 (pv - x_heap_struct_size) in
  Rd (link + 8) (fun s =>                                              (* 322 *)
  if negb (Z.land s heap_block_allocated_bitmask =? 0) then
    Rd link (fun nx =>                                                 (* 323 *)
    if nx =? prot 0 then
      Rd (link + 8) (fun s1 => Wr (link + 8) (Z.land s1 (u64 (Z.lnot heap_block_allocated_bitmask))) (   (* 326 *)
      Rd (link + 8) (fun s2 => Get FFree (fun f => Put FFree (u64 (f + s2)) (       (* 331 *)
      insert_code fuel xs link (                                       (* 332 *)
      Get FFrees (fun n => Put FFrees (u64 (n + 1)) k)))))))           (* 333 *)
    else k)
  else k).

(** A thread that makes the given calls. *)
Fixpoint calls (fuel : nat) (xs : Z) (l : list hcall) : code :=
  match l with
  | [] => Stop
  | HAlloc n :: r => alloc_code fuel xs n (fun p => Out (HAlloc n) p (calls fuel xs r))
  | HFree p :: r => free_code fuel xs p (Out (HFree p) 0 (calls fuel xs r))
  end.
Definition thread (c : cfg) (l : list hcall) : code := calls (walk_fuel c) (c_xs c) l.

(** One access. *)
Definition tstep (c : cfg) (h : heap) (d : code) : res (heap * code * list (hcall * Z)) :=
  match d with
  | Stop => Ok (h, Stop, [])
  | Spin => Fuel
  | Rd a k => v <- load c (h_mem h) a ;; Ok (h, k v, [])
  | Wr a v k => m <- store c (h_mem h) a v ;; Ok (set_mem h m, k, [])
  | Get f k => Ok (h, k (get h f), [])
  | Put f v k => Ok (put h f v, k, [])
  | End k => Ok (h, k (h_end h), [])
  | Cb k => Ok (h, k (h_cb h), [])
  | Fire k => Ok (fire h, k, [])
  | Out x r k => Ok (h, k, [(x, r)])
  end.

(** The heap, the threads, and who returned what so far. *)
Record hworld := HW { w_heap : heap; w_threads : list code; w_log : list (nat * hcall * Z) }.
Fixpoint set_code (l : list code) (i : nat) (d : code) : list code :=
  match l, i with
  | [], _ => []
  | _ :: r, O => d :: r
  | x :: r, S j => x :: set_code r j d
  end.
Definition hstep (c : cfg) (w : hworld) (i : nat) : res hworld :=
  match nth_error (w_threads w) i with
  | None => Ok w
  | Some d =>
    ' (h, d', o) <- tstep c (w_heap w) d ;;
    Ok (HW h (set_code (w_threads w) i d') (w_log w ++ map (fun e => (i, fst e, snd e)) o))
  end.
Fixpoint hrun (c : cfg) (w : hworld) (sched : list nat) : res hworld :=
  match sched with
  | [] => Ok w
  | i :: rest => w' <- hstep c w i ;; hrun c w' rest
  end.
