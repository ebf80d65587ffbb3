(** Vocabulary in which the heap properties are stated.  Nothing here looks at
    the heap's internal lists: a client sees pointers, free_heap_size(),
    minimum_ever_free_heap_size() and the bytes of its own blocks. *)
From Verif Require Export HeapModel.

(** The usable area of the buffer: from its first 8-aligned address to the
    8-aligned address that leaves 16 bytes for the end marker. *)
Definition area_start (c : cfg) : Z := (c_base c + 7) / 8 * 8.
Definition area_end (c : cfg) : Z := (c_base c + c_size c - 16) / 8 * 8.

(** A real placement of the object: addresses are positive and fit in 64 bits,
    x_start_ follows uc_heap_ (declaration order, static_heap.hpp:534-538) and is
    8-aligned, the array is smaller than half the address space (PTRDIFF_MAX). *)
Record placed (c : cfg) : Prop := {
  pl_base : 8 <= c_base c;
  pl_size : 0 < c_size c < 2 ^ 63;
  pl_xs : c_base c + c_size c <= c_xs c;
  pl_al : c_xs c mod 8 = 0;
  pl_top : c_xs c + 16 < W64
}.

(** [Size] is large enough for one free block besides the end marker. *)
Definition roomy (c : cfg) : Prop := area_start c + 16 <= area_end c.

(** A block the client holds: the pointer it got, the number of bytes it asked
    for, and by how much free_heap_size() fell when it got it (the footprint). *)
Record held := Held { hd_ptr : Z; hd_req : Z; hd_fp : Z }.

Inductive op :=
| Alloc (n : Z)
| Calloc (num size : Z)
| Free (p : Z)
| ResetMin
| OnFail (b : bool)
| Write (a v : Z).

Definition apply (c : cfg) (h : heap) (o : op) : res (heap * Z) :=
  match o with
  | Alloc n => allocate c h n
  | Calloc num size => callocate c h num size
  | Free p => h' <- deallocate c h p ;; Ok (h', 0)
  | ResetMin => Ok (reset_minimum_ever_free_heap_size h, 0)
  | OnFail b => Ok (on_fail h b, 0)
  | Write a v => h' <- client_write c h a v ;; Ok (h', 0)
  end.

Definition is_size (n : Z) : Prop := 0 <= n < W64.

(** What a well-behaved client does: sizes are size_t values, it frees null or a
    pointer it holds, it writes bytes inside blocks it holds. *)
Definition permitted (l : list held) (o : op) : Prop :=
  match o with
  | Alloc n => is_size n
  | Calloc num size => is_size num /\ is_size size
  | Free p => p = 0 \/ exists b, In b l /\ hd_ptr b = p
  | ResetMin | OnFail _ => True
  | Write a v => 0 <= v < 256 /\
                 exists b, In b l /\ hd_ptr b <= a < hd_ptr b + hd_req b
  end.

(** The client's table after a call that returned [r], while free_heap_size()
    went from [f0] to [f1]. *)
Definition hold (l : list held) (o : op) (r f0 f1 : Z) : list held :=
  match o with
  | Alloc n => if r =? 0 then l else Held r n (f0 - f1) :: l
  | Calloc num size => if r =? 0 then l else Held r (num * size) (f0 - f1) :: l
  | Free p => filter (fun b => negb (hd_ptr b =? p)) l
  | _ => l
  end.

(** An event: the call, its result, and free_heap_size() afterwards. *)
Definition event : Type := op * Z * Z.

Inductive session (c : cfg) : heap -> list held -> list event -> heap -> list held -> Prop :=
| sess_nil h l : session c h l [] h l
| sess_cons h l o h1 r evs h2 l2 :
    permitted l o ->
    apply c h o = Ok (h1, r) ->
    session c h1 (hold l o r (free_heap_size h) (free_heap_size h1)) evs h2 l2 ->
    session c h l ((o, r, free_heap_size h1) :: evs) h2 l2.

(** [h] with client table [l] is reachable from construction. *)
Definition reachable (c : cfg) (h : heap) (l : list held) : Prop :=
  exists h0 evs, construct c = Ok h0 /\ session c h0 [] evs h l.

(** Byte ranges. *)
Definition disjoint (a n b m : Z) : Prop := a + n <= b \/ b + m <= a.

(** The bytes charged to a held block, header included. *)
Definition region_start (b : held) : Z := hd_ptr b - 16.

(** n bytes plus header, rounded up to a multiple of 8. *)
Definition needed (n : Z) : Z := (n + 16 + 7) / 8 * 8.

(** [needed n] bytes from address [a] lie in the usable area and touch no held
    block. *)
Definition free_window (c : cfg) (l : list held) (a n : Z) : Prop :=
  area_start c <= a /\ a + needed n <= area_end c /\
  forall b, In b l -> disjoint a (needed n) (region_start b) (hd_fp b).

(** Everything a client or the next call can observe, except the number of
    callback invocations. *)
Definition unchanged (h h' : heap) : Prop :=
  (forall a, h_mem h' a = h_mem h a) /\
  free_heap_size h' = free_heap_size h /\
  minimum_ever_free_heap_size h' = minimum_ever_free_heap_size h /\
  h_end h' = h_end h /\ h_allocs h' = h_allocs h /\ h_frees h' = h_frees h /\
  h_cb h' = h_cb h.

(** The values of free_heap_size() seen since construction (or since [acc]
    started) up to now, forgetting everything before the last reset. *)
Fixpoint points (acc : list Z) (evs : list event) : list Z :=
  match evs with
  | [] => acc
  | (ResetMin, _, f) :: t => points [f] t
  | (_, _, f) :: t => points (f :: acc) t
  end.

Definition is_minimum (m : Z) (l : list Z) : Prop := In m l /\ forall x, In x l -> m <= x.

Definition total_footprint (l : list held) : Z := fold_right Z.add 0 (map hd_fp l).

Definition is_write (o : op) : bool := match o with Write _ _ => true | _ => false end.

(** Calls that handed out a block, and calls that gave one back. *)
Definition handed_out (e : event) : bool :=
  match e with (Alloc _, r, _) | (Calloc _ _, r, _) => negb (r =? 0) | _ => false end.
Definition given_back (e : event) : bool :=
  match e with (Free p, _, _) => negb (p =? 0) | _ => false end.

(** How often the callback runs: at each refused request while one is set, except a
    callocate whose product does not fit in size_t. *)
Fixpoint alarms (set : bool) (evs : list event) : Z :=
  match evs with
  | [] => 0
  | (OnFail b, _, _) :: t => alarms b t
  | (Alloc _, r, _) :: t => (if set && (r =? 0) then 1 else 0) + alarms set t
  | (Calloc num size, r, _) :: t =>
      (if set && (r =? 0) && (num * size <? W64) then 1 else 0) + alarms set t
  | _ :: t => alarms set t
  end.

(** The nearest held block at or above [a], or the end of the area. *)
Definition ceiling (c : cfg) (l : list held) (a : Z) : Z :=
  fold_right (fun b e => if a <=? region_start b then Z.min (region_start b) e else e) (area_end c) l.

(** A maximal free stretch of the area: [n] bytes from [a]. *)
Definition gap (c : cfg) (l : list held) (a n : Z) : Prop :=
  0 < n /\ (forall b, In b l -> disjoint a n (region_start b) (hd_fp b)) /\
  (a = area_start c \/ exists b, In b l /\ region_start b + hd_fp b = a) /\
  (a + n = area_end c \/ exists b, In b l /\ region_start b = a + n).

(** An executable client, to exhibit concrete sessions. *)
Definition permittedb (l : list held) (o : op) : bool :=
  match o with
  | Alloc n => (0 <=? n) && (n <? W64)
  | Calloc num size => (0 <=? num) && (num <? W64) && (0 <=? size) && (size <? W64)
  | Free p => (p =? 0) || existsb (fun b => hd_ptr b =? p) l
  | ResetMin | OnFail _ => true
  | Write a v => (0 <=? v) && (v <? 256) &&
                 existsb (fun b => (hd_ptr b <=? a) && (a <? hd_ptr b + hd_req b)) l
  end.

Fixpoint run (c : cfg) (h : heap) (l : list held) (ops : list op)
  : option (list event * heap * list held) :=
  match ops with
  | [] => Some ([], h, l)
  | o :: t =>
      if permittedb l o then
        match apply c h o with
        | Ok (h1, r) =>
            match run c h1 (hold l o r (free_heap_size h) (free_heap_size h1)) t with
            | Some (evs, h2, l2) => Some ((o, r, free_heap_size h1) :: evs, h2, l2)
            | None => None
            end
        | _ => None
        end
      else None
  end.
