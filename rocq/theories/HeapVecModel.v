(** std::vector<T, static_heap_allocator<T, Size>> (include/xitren/allocators/static_heap_allocator.hpp,
    used like this in README.md and tests/patterns_static_heap_allocator.cpp:145-180): any number of
    vectors in one heap, next to other users of it.  The vector is libstdc++'s (bits/stl_vector.h,
    bits/vector.tcc); it calls allocate (42-50) and deallocate (52-56).  Simplified: T is trivially
    copyable, a value of it is its sizeof(T) bytes; insert and erase in the middle, shrink_to_fit,
    swap and moving are left out. *)
From Verif Require Export HeapSpec.

(** _M_start, _M_finish - _M_start and _M_end_of_storage - _M_start, in elements. *)
Record vec := Vec { ve_data : Z; ve_size : Z; ve_cap : Z }.
Definition empty_vec : vec := Vec 0 0 0.

Definition elem := list Z.

Inductive vcmd :=
| VNew                          (* vector(alloc) *)
| VDrop (i : nat)               (* the destructor; an empty vector takes its place *)
| VPush (i : nat) (x : elem)    (* push_back *)
| VPop (i : nat)                (* pop_back *)
| VSet (i j : nat) (x : elem)   (* v[j] = x *)
| VReserve (i : nat) (n : Z)
| VClear (i : nat)
| VCopy (i j : nat)             (* v_i = v_j *)
| VOther (o : op).              (* another user of the heap *)
Inductive vret := VDone | VBadAlloc | VLengthError | VGot (p : Z).

Record vheap := VH { vh_heap : heap; vh_vecs : list vec }.

Fixpoint vput (l : list vec) (i : nat) (v : vec) : list vec :=
  match l, i with
  | [], _ => []
  | _ :: r, O => v :: r
  | x :: r, S k => x :: vput r k v
  end.

(** The bytes at [a], and storing bytes there (undefined outside the buffer). *)
Definition read_bytes (m : memory) (a : Z) (n : nat) : list Z := map (fun j => m (a + Z.of_nat j)) (seq 0 n).
Fixpoint write_bytes (c : cfg) (h : heap) (a : Z) (l : list Z) : res heap :=
  match l with
  | [] => Ok h
  | b :: r => h <- client_write c h a b ;; write_bytes c h (a + 1) r
  end.

Section Vec.
  Variable c : cfg.
  Variable sz : Z.   (* sizeof(T) *)

  (** _S_max_size: PTRDIFF_MAX / sizeof(T). *)
  Definition max_size : Z := (2 ^ 63 - 1) / sz.
  (** _M_check_len(1). *)
  Definition check_len (size : Z) : option Z :=
    if u64 (max_size - size) <? 1 then None
    else
      let len := u64 (size + Z.max size 1) in
      Some (if (len <? size) || (max_size <? len) then max_size else len).
  (** _M_deallocate *)
  Definition vfree (h : heap) (p : Z) : res heap := if p =? 0 then Ok h else alloc_deallocate c h p.

  (** Moving the elements to a new block of [n] elements, of which [extra] are appended
      (_M_realloc_insert: the new element is constructed first; reserve: none). *)
  Definition regrow (h : heap) (v : vec) (n : Z) (extra : list elem) : res (heap * option vec) :=
    '(h, r) <- alloc_allocate c h sz n ;;
    match r with
    | None => Ok (h, None)
    | Some p =>
      h <- write_bytes c h (p + ve_size v * sz) (concat extra) ;;
      h <- write_bytes c h p (read_bytes (h_mem h) (ve_data v) (Z.to_nat (ve_size v * sz))) ;;
      h <- vfree h (ve_data v) ;;
      Ok (h, Some (Vec p (ve_size v + Z.of_nat (length extra)) n))
    end.

  Definition push_back (h : heap) (v : vec) (x : elem) : res (heap * vec * vret) :=
    if negb (ve_size v =? ve_cap v) then
      h <- write_bytes c h (ve_data v + ve_size v * sz) x ;;
      Ok (h, Vec (ve_data v) (ve_size v + 1) (ve_cap v), VDone)
    else
      match check_len (ve_size v) with
      | None => Ok (h, v, VLengthError)
      | Some n =>
        '(h, o) <- regrow h v n [x] ;;
        match o with Some v' => Ok (h, v', VDone) | None => Ok (h, v, VBadAlloc) end
      end.

  Definition reserve (h : heap) (v : vec) (n : Z) : res (heap * vec * vret) :=
    if max_size <? n then Ok (h, v, VLengthError)
    else if ve_cap v <? n then
      '(h, o) <- regrow h v n [] ;;
      match o with Some v' => Ok (h, v', VDone) | None => Ok (h, v, VBadAlloc) end
    else Ok (h, v, VDone).

  (** operator=(const vector&) *)
  Definition copy_assign (h : heap) (v w : vec) : res (heap * vec * vret) :=
    if ve_cap v <? ve_size w then
      '(h, r) <- alloc_allocate c h sz (ve_size w) ;;
      match r with
      | None => Ok (h, v, VBadAlloc)
      | Some p =>
        h <- write_bytes c h p (read_bytes (h_mem h) (ve_data w) (Z.to_nat (ve_size w * sz))) ;;
        h <- vfree h (ve_data v) ;;
        Ok (h, Vec p (ve_size w) (ve_size w), VDone)
      end
    else
      h <- write_bytes c h (ve_data v) (read_bytes (h_mem h) (ve_data w) (Z.to_nat (ve_size w * sz))) ;;
      Ok (h, Vec (ve_data v) (ve_size w) (ve_cap v), VDone).

  Definition on_vec (w : vheap) (i : nat) (f : heap -> vec -> res (heap * vec * vret)) : res (vheap * vret) :=
    match nth_error (vh_vecs w) i with
    | None => UB
    | Some v => '(h, v', r) <- f (vh_heap w) v ;; Ok (VH h (vput (vh_vecs w) i v'), r)
    end.

  Definition vstep (w : vheap) (k : vcmd) : res (vheap * vret) :=
    match k with
    | VNew => Ok (VH (vh_heap w) (vh_vecs w ++ [empty_vec]), VDone)
    | VDrop i => on_vec w i (fun h v => h <- vfree h (ve_data v) ;; Ok (h, empty_vec, VDone))
    | VPush i x => on_vec w i (fun h v => push_back h v x)
    | VPop i => on_vec w i (fun h v => if ve_size v =? 0 then UB else Ok (h, Vec (ve_data v) (ve_size v - 1) (ve_cap v), VDone))
    | VSet i j x =>
      on_vec w i (fun h v => if ve_size v <=? Z.of_nat j then UB
                             else h <- write_bytes c h (ve_data v + Z.of_nat j * sz) x ;; Ok (h, v, VDone))
    | VReserve i n => on_vec w i (fun h v => reserve h v n)
    | VClear i => on_vec w i (fun h v => Ok (h, Vec (ve_data v) 0 (ve_cap v), VDone))
    | VCopy i j =>
      match nth_error (vh_vecs w) j with
      | None => UB
      | Some u => if (i =? j)%nat then Ok (w, VDone) else on_vec w i (fun h v => copy_assign h v u)
      end
    | VOther o => '(h, p) <- apply c (vh_heap w) o ;; Ok (VH h (vh_vecs w), VGot p)
    end.
End Vec.
