(** Copying a static_heap (include/xitren/allocators/static_heap.hpp).  The class declares
    a default constructor (384-422) and no copy operations, so [auto b = a;] copies the
    members one by one (534-546): callback_, the bytes of uc_heap_, x_start_, px_end_ and
    the four counters.  The pointers among them are copied as they are. *)
From Verif Require Export HeapSpec.

(** The copy lies [d] bytes above the original; the layout is the same, so every member
    does.  [copy_bytes]: uc_heap_ (535) and x_start_ (538) of the copy are filled with the
    bytes of the original's. *)
Definition copy_bytes (c : cfg) (d : Z) (m : memory) : memory :=
  fun a =>
    if (c_base c + d <=? a) && (a <? c_base c + d + c_size c)
       || (c_xs c + d <=? a) && (a <? c_xs c + d + 16)
    then m (a - d) else m a.

(** Where the copy's member functions may read and write.  They reach memory in two ways:
    through their own x_start_ (213-214, 433, 492), at [c_xs c + d], and through block
    pointers, which start from the copied x_start_ and px_end_ and so lead into the
    original's uc_heap_.  uc_heap_ itself is mentioned only by the constructor (391-396),
    which is not run, and by heap_validate_block_pointer (155-156), whose config_assert
    ignores its argument (78).  If a call strayed into the copy's own uc_heap_ the model
    would say undefined; C103 shows that it does not happen. *)
Definition copy_cfg (c : cfg) (d : Z) : cfg :=
  {| c_size := c_size c; c_base := c_base c; c_xs := c_xs c + d |}.

(** Two objects; the bytes are those of one memory, so both records hold the same
    [h_mem]. *)
Record pair := Pair { p_orig : heap; p_copy : heap }.

(** [auto b = a;].  [h_fired] counts the calls of the copy's own callback_. *)
Definition copy_heap (c : cfg) (d : Z) (h : heap) : pair :=
  let m := copy_bytes c d (h_mem h) in
  Pair (set_mem h m)
       (mkHeap m (h_end h) (h_free h) (h_min h) (h_allocs h) (h_frees h) (h_cb h) 0).

Inductive who := Original | Copy.
Definition other (w : who) : who := match w with Original => Copy | Copy => Original end.

(** A call on one of the two. *)
Definition pair_call (c : cfg) (d : Z) (w : who) (t : pair) (o : op) : res (pair * Z) :=
  match w with
  | Original =>
      '(h, r) <- apply c (p_orig t) o ;; Ok (Pair h (set_mem (p_copy t) (h_mem h)), r)
  | Copy =>
      '(h, r) <- apply (copy_cfg c d) (p_copy t) o ;; Ok (Pair (set_mem (p_orig t) (h_mem h)) h, r)
  end.
