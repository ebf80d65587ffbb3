(** Model of include/xitren/allocators/static_heap.hpp and
    include/xitren/allocators/static_heap_allocator.hpp.

    Target assumptions (trusted): 64-bit size_t and pointers (block_link_t is two
    8-byte words, 16 bytes, alignment 8), little-endian byte order (only matters
    for how header words appear as bytes), std::uint8_t bytes.  Calls are
    sequential: the class has no locking (v_task_suspend_all is empty,
    static_heap.hpp:70-76). *)
From Verif Require Export Base.

(** The template parameter [Size] and the addresses the object was given.
    [c_base] = &uc_heap_[0] (static_heap.hpp:535), [c_xs] = &x_start_ (538). *)
Record cfg := { c_size : Z; c_base : Z; c_xs : Z }.

(** static_heap.hpp:42, 64, 81 *)
Definition port_byte_alignment : Z := 8.
Definition port_byte_alignment_mask : Z := 7.
Definition x_heap_canary : Z := 0x655556.

(** sizeof(block_link_t), static_heap.hpp:26-29: a pointer and a size_t. *)
Definition sizeof_block_link : Z := 16.

(** ~((std::size_t)port_byte_alignment_mask), used at static_heap.hpp:88,395,408 *)
Definition not_mask : Z := u64 (Z.lnot port_byte_alignment_mask).

(** static_heap.hpp:87-88 *)
Definition x_heap_struct_size : Z :=
  Z.land (sizeof_block_link + (port_byte_alignment - 1)) not_mask.

(** static_heap.hpp:93 *)
Definition heap_minimum_block_size : Z := u64 (Z.shiftl x_heap_struct_size 1).

(** static_heap.hpp:99 *)
Definition heap_size_max : Z := u64 (Z.lnot 0).

(** static_heap.hpp:102-106 *)
Definition heap_multiply_will_overflow (a b : Z) : bool :=
  (0 <? a) && (heap_size_max / a <? b).

(** static_heap.hpp:109-113 *)
Definition heap_add_will_overflow (a b : Z) : bool := u64 (heap_size_max - b) <? a.

(** static_heap.hpp:122-123 *)
Definition heap_block_allocated_bitmask : Z := u64 (Z.shiftl 1 (8 * 8 - 1)).

(** static_heap.hpp:125-129 *)
Definition heap_block_size_is_valid (s : Z) : bool :=
  Z.land s heap_block_allocated_bitmask =? 0.

(** static_heap.hpp:146-150 (on addresses) *)
Definition heap_protect_block_pointer (p : Z) : Z := Z.lxor p x_heap_canary.

(** Object state.  [h_mem] holds the bytes of uc_heap_ (535) and of x_start_
    (538); the other fields are px_end_ (539), x_free_bytes_remaining_ (543),
    x_minimum_ever_free_bytes_remaining_ (544), the two counters (545-546) and
    whether callback_ (534) is set.  [h_fired] is not in the code: it counts the
    invocations of callback_ so that theorems can talk about them. *)
Record heap := mkHeap {
  h_mem : memory;
  h_end : Z;
  h_free : Z;
  h_min : Z;
  h_allocs : Z;
  h_frees : Z;
  h_cb : bool;
  h_fired : Z
}.

Definition set_mem (h : heap) (m : memory) : heap :=
  mkHeap m (h_end h) (h_free h) (h_min h) (h_allocs h) (h_frees h) (h_cb h) (h_fired h).

(** A 64-bit member access at address [a] is defined only inside uc_heap_ or on
    one of the two members of x_start_, and only when aligned. *)
Definition word_ok (c : cfg) (a : Z) : bool :=
  (a mod 8 =? 0) &&
  (((c_base c <=? a) && (a + 8 <=? c_base c + c_size c))
   || (a =? c_xs c) || (a =? c_xs c + 8)).

Definition load (c : cfg) (m : memory) (a : Z) : res Z :=
  if word_ok c a then Ok (rd m a) else UB.
Definition store (c : cfg) (m : memory) (a v : Z) : res memory :=
  if word_ok c a then Ok (wr m a v) else UB.

(** Member access through a block_link_t pointer (static_heap.hpp:26-29):
    px_next_free_block at offset 0, x_block_size at offset 8. *)
Definition ld_next c m (p : Z) : res Z := load c m p.
Definition ld_size c m (p : Z) : res Z := load c m (p + 8).
Definition st_next c m (p v : Z) : res memory := store c m p v.
Definition st_size c m (p v : Z) : res memory := store c m (p + 8) v.

(** static_heap.hpp:130-134, 135-139, 140-144 *)
Definition heap_block_is_allocated c m (p : Z) : res bool :=
  s <- ld_size c m p ;; Ok (negb (Z.land s heap_block_allocated_bitmask =? 0)).
Definition heap_allocate_block c m (p : Z) : res memory :=
  s <- ld_size c m p ;; st_size c m p (Z.lor s heap_block_allocated_bitmask).
Definition heap_free_block c m (p : Z) : res memory :=
  s <- ld_size c m p ;;
  st_size c m p (Z.land s (u64 (Z.lnot heap_block_allocated_bitmask))).

(** Loop bound for the list walks: more than the number of blocks that fit.
    Not in the code. *)
Definition walk_fuel (c : cfg) : nat := S (S (Z.to_nat (c_size c))).

(** static_heap.hpp:384-422, the constructor.  [mem0] is the zero-initialised
    object (535, 538). *)
Definition mem0 : memory := fun _ => 0.

Definition construct (c : cfg) : res heap :=
  let start0 := c_base c in
  (* 393-397 *)
  let '(start, total) :=
    if negb (Z.land start0 port_byte_alignment_mask =? 0) then
      let s := Z.land (u64 (start0 + (port_byte_alignment - 1))) not_mask in
      (s, u64 (c_size c - u64 (s - c_base c)))
    else (start0, c_size c) in
  (* 401-402 *)
  m <- st_next c mem0 (c_xs c) (heap_protect_block_pointer start) ;;
  m <- st_size c m (c_xs c) 0 ;;
  (* 406-411 *)
  let e := Z.land (u64 (u64 (start + total) - x_heap_struct_size)) not_mask in
  m <- st_size c m e 0 ;;
  m <- st_next c m e (heap_protect_block_pointer 0) ;;
  (* 415-417 *)
  m <- st_size c m start (u64 (e - start)) ;;
  m <- st_next c m start (heap_protect_block_pointer e) ;;
  (* 420-421 *)
  s <- ld_size c m start ;;
  Ok (mkHeap m e s s 0 0 false 0).

(** static_heap.hpp:176-201: the size adjustment at the start of allocate. *)
Definition adjust (w : Z) : Z :=
  if 0 <? w then
    if negb (heap_add_will_overflow w x_heap_struct_size) then
      let w1 := u64 (w + x_heap_struct_size) in
      if negb (Z.land w1 port_byte_alignment_mask =? 0) then
        let add := u64 (port_byte_alignment - Z.land w1 port_byte_alignment_mask) in
        if negb (heap_add_will_overflow w1 add) then u64 (w1 + add) else 0
      else w1
    else 0
  else w.

(** static_heap.hpp:217-222: first-fit walk; result (px_previous_block, px_block). *)
Fixpoint find_block (fuel : nat) c m (prev blk wanted : Z) : res (Z * Z) :=
  match fuel with
  | O => Fuel
  | S f =>
      s <- ld_size c m blk ;;
      if s <? wanted then
        nx <- ld_next c m blk ;;
        if negb (nx =? heap_protect_block_pointer 0)
        then find_block f c m blk (heap_protect_block_pointer nx) wanted
        else Ok (prev, blk)
      else Ok (prev, blk)
  end.

(** static_heap.hpp:229-277: taking block [blk], whose predecessor in the free
    list is [prev], for a request of [wanted] bytes. *)
Definition take_block c (h : heap) (prev blk wanted : Z) : res (heap * Z) :=
  let m := h_mem h in
  (* 229-231 *)
  nx <- ld_next c m prev ;;
  let ret := u64 (heap_protect_block_pointer nx + x_heap_struct_size) in
  (* 236 *)
  bn <- ld_next c m blk ;;
  m <- st_next c m prev bn ;;
  (* 242 *)
  s <- ld_size c m blk ;;
  m <- (if heap_minimum_block_size <? u64 (s - wanted) then
          (* 247-258 *)
          let nb := u64 (blk + wanted) in
          m <- st_size c m nb (u64 (s - wanted)) ;;
          m <- st_size c m blk wanted ;;
          pn <- ld_next c m prev ;;
          m <- st_next c m nb pn ;;
          st_next c m prev (heap_protect_block_pointer nb)
        else Ok m) ;;
  (* 263-269 *)
  s <- ld_size c m blk ;;
  let fr := u64 (h_free h - s) in
  let mn := if fr <? h_min h then fr else h_min h in
  (* 275-277 *)
  m <- heap_allocate_block c m blk ;;
  m <- st_next c m blk (heap_protect_block_pointer 0) ;;
  Ok (mkHeap m (h_end h) fr mn (u64 (h_allocs h + 1)) (h_frees h) (h_cb h) (h_fired h), ret).

(** static_heap.hpp:203-291: the guarded middle part of allocate. *)
Definition allocate_core c (h : heap) (w : Z) : res (heap * Z) :=
  if heap_block_size_is_valid w then
    if (0 <? w) && (w <=? h_free h) then
      first <- ld_next c (h_mem h) (c_xs c) ;;
      '(prev, blk) <- find_block (walk_fuel c) c (h_mem h) (c_xs c)
                                 (heap_protect_block_pointer first) w ;;
      if negb (blk =? h_end h) then take_block c h prev blk w else Ok (h, 0)
    else Ok (h, 0)
  else Ok (h, 0).

(** static_heap.hpp:293-295: calling callback_.  What the callback itself does to
    the heap is not part of this call: it runs after all heap updates of the
    failing allocate, so it is the same as operations performed afterwards. *)
Definition fire (h : heap) : heap :=
  mkHeap (h_mem h) (h_end h) (h_free h) (h_min h) (h_allocs h) (h_frees h) (h_cb h)
         (h_fired h + 1).

(** static_heap.hpp:166-301 *)
Definition allocate c (h : heap) (x_wanted_size : Z) : res (heap * Z) :=
  '(h, ret) <- allocate_core c h (adjust x_wanted_size) ;;
  if (ret =? 0) && h_cb h then Ok (fire h, ret) else Ok (h, ret).

(** static_heap.hpp:433-436: position search in prv_insert_block_into_free_list. *)
Fixpoint find_pos (fuel : nat) c m (it blk : Z) : res Z :=
  match fuel with
  | O => Fuel
  | S f =>
      nx <- ld_next c m it ;;
      if heap_protect_block_pointer nx <? blk
      then find_pos f c m (heap_protect_block_pointer nx) blk
      else Ok it
  end.

(** static_heap.hpp:425-481 *)
Definition prv_insert_block_into_free_list c (m : memory) (pend blk0 : Z) : res memory :=
  it <- find_pos (walk_fuel c) c m (c_xs c) blk0 ;;
  (* 444-451 *)
  si <- ld_size c m it ;;
  '(m, blk) <- (if u64 (it + si) =? blk0 then
                  sb <- ld_size c m blk0 ;;
                  m <- st_size c m it (u64 (si + sb)) ;;
                  Ok (m, it)
                else Ok (m, blk0)) ;;
  (* 455-470 *)
  sb <- ld_size c m blk ;;
  nx <- ld_next c m it ;;
  m <- (if u64 (blk + sb) =? heap_protect_block_pointer nx then
          if negb (heap_protect_block_pointer nx =? pend) then
            sn <- ld_size c m (heap_protect_block_pointer nx) ;;
            m <- st_size c m blk (u64 (sb + sn)) ;;
            nx2 <- ld_next c m it ;;
            nn <- ld_next c m (heap_protect_block_pointer nx2) ;;
            st_next c m blk nn
          else st_next c m blk (heap_protect_block_pointer pend)
        else st_next c m blk nx) ;;
  (* 476-480 *)
  if negb (it =? blk) then st_next c m it (heap_protect_block_pointer blk) else Ok m.

(** static_heap.hpp:304-343 *)
Definition deallocate c (h : heap) (pv : Z) : res heap :=
  if pv =? 0 then Ok h else
    let link := u64 (pv - x_heap_struct_size) in
    al <- heap_block_is_allocated c (h_mem h) link ;;
    if (al : bool) then
      nx <- ld_next c (h_mem h) link ;;
      if nx =? heap_protect_block_pointer 0 then
        m <- heap_free_block c (h_mem h) link ;;
        s <- ld_size c m link ;;
        let fr := u64 (h_free h + s) in
        m <- prv_insert_block_into_free_list c m (h_end h) link ;;
        Ok (mkHeap m (h_end h) fr (h_min h) (h_allocs h) (u64 (h_frees h + 1))
                   (h_cb h) (h_fired h))
      else Ok h
    else Ok h.

(** static_heap.hpp:346-350, 353-357 *)
Definition free_heap_size (h : heap) : Z := h_free h.
Definition minimum_ever_free_heap_size (h : heap) : Z := h_min h.

(** static_heap.hpp:360-364 *)
Definition reset_minimum_ever_free_heap_size (h : heap) : heap :=
  mkHeap (h_mem h) (h_end h) (h_free h) (h_free h) (h_allocs h) (h_frees h) (h_cb h)
         (h_fired h).

(** static_heap.hpp:160-164; only whether a callback is set is kept. *)
Definition on_fail (h : heap) (b : bool) : heap :=
  mkHeap (h_mem h) (h_end h) (h_free h) (h_min h) (h_allocs h) (h_frees h) b (h_fired h).

(** memset(pv, 0, n) at static_heap.hpp:376; undefined outside uc_heap_. *)
Definition memset0 c (m : memory) (p n : Z) : res memory :=
  if (c_base c <=? p) && (p + n <=? c_base c + c_size c)
  then Ok (fun x => if (p <=? x) && (x <? p + n) then 0 else m x)
  else UB.

(** static_heap.hpp:367-381 *)
Definition callocate c (h : heap) (x_num x_size : Z) : res (heap * Z) :=
  if negb (heap_multiply_will_overflow x_num x_size) then
    '(h, pv) <- allocate c h (u64 (x_num * x_size)) ;;
    if negb (pv =? 0) then
      m <- memset0 c (h_mem h) pv (u64 (x_num * x_size)) ;;
      Ok (set_mem h m, pv)
    else Ok (h, pv)
  else Ok (h, 0).

(** A byte store made by the client itself; undefined outside uc_heap_. *)
Definition client_write c (h : heap) (a v : Z) : res heap :=
  if (c_base c <=? a) && (a <? c_base c + c_size c)
  then Ok (set_mem h (upd (h_mem h) a v)) else UB.

(** static_heap_allocator.hpp:42-50.  [None] = std::bad_alloc was thrown. *)
Definition alloc_allocate c (h : heap) (sizeof_type n : Z) : res (heap * option Z) :=
  '(h, p) <- allocate c h (u64 (n * sizeof_type)) ;;
  if negb (p =? 0) then Ok (h, Some p) else Ok (h, None).

(** static_heap_allocator.hpp:52-56 *)
Definition alloc_deallocate c (h : heap) (p : Z) : res heap := deallocate c h p.

(** An allocator object: its own address and the address of its manager
    (static_heap_allocator.hpp:21, 36-40). *)
Record allocator := { al_self : Z; al_manager : Z }.

(** static_heap_allocator.hpp:38-40: copy / rebind construction at address [a]. *)
Definition allocator_copy (a : Z) (o : allocator) : allocator :=
  {| al_self := a; al_manager := al_manager o |}.

(** static_heap_allocator.hpp:58-63, 65-70 (same value type) *)
Definition allocator_eqb (x y : allocator) : bool := al_self x =? al_self y.
Definition allocator_neqb (x y : allocator) : bool := negb (allocator_eqb x y).

(** heap_stats_t (static_heap.hpp:32-40). *)
Record heap_stats := Stats {
  st_available : Z; st_largest : Z; st_smallest : Z; st_blocks : Z;
  st_minimum : Z; st_allocs : Z; st_frees : Z
}.
(** static_heap.hpp:83 *)
Definition port_max_delay : Z := 0xffffffff.

(** static_heap.hpp:497-513: the walk over the free list; [fuel] bounds the loop. *)
Fixpoint stats_walk (fuel : nat) c m (blk pend blocks mx mn : Z) : res (Z * Z * Z) :=
  match fuel with
  | O => Fuel
  | S f =>
      if blk =? pend then Ok (blocks, mx, mn)
      else
        s <- ld_size c m blk ;;
        nx <- ld_next c m blk ;;
        stats_walk f c m (heap_protect_block_pointer nx) pend (u64 (blocks + 1))
                   (if mx <? s then s else mx) (if s <? mn then s else mn)
  end.

(** static_heap.hpp:485-530.  The source calls heapPROTECT_BLOCK_POINTER, which is
    declared nowhere (492, 512); it is read as heap_protect_block_pointer. *)
Definition v_port_get_heap_stats c (h : heap) : res heap_stats :=
  first <- ld_next c (h_mem h) (c_xs c) ;;
  let blk := heap_protect_block_pointer first in
  '(blocks, mx, mn) <- (if blk =? 0 then Ok (0, 0, port_max_delay)
                        else stats_walk (walk_fuel c) c (h_mem h) blk (h_end h) 0 0 port_max_delay) ;;
  Ok (Stats (h_free h) mx mn blocks (h_min h) (h_allocs h) (h_frees h)).
