(** std::list<T, static_heap_allocator<T, Size>> (include/xitren/allocators/static_heap_allocator.hpp,
    used like this in tests/patterns_static_heap_allocator.cpp:210-245): any number of lists whose
    nodes live in one heap, next to other users of it.  The list is libstdc++'s (bits/stl_list.h,
    bits/list.tcc, src/c++98/list.cc): a ring of nodes through the list object itself.  It calls
    allocate (42-50) of the allocator rebound (30-34) to the node type and deallocate (52-56).
    Simplified: T is trivially copyable with alignment at most 8, a value of it is its sizeof(T)
    bytes; copying, moving, swapping, sorting and splicing are left out (splice and merge compare
    const allocators, which do not compile with the non-const operators 58-70). *)
From Verif Require Export HeapVecSpec.

(** A list object at address [a]: _M_next at [a], _M_prev at [a + 8], _M_size at [a + 16].
    A node at [p]: _M_next at [p], _M_prev at [p + 8], the value at [p + 16].
    [lh_words]: the words outside the heap's buffer; [lh_lists]: where list objects are. *)
Record lheap := LH { lh_heap : heap; lh_words : Z -> Z; lh_lists : list Z }.

Inductive lcmd :=
| LNew (a : Z)                      (* list(alloc), the object being at [a] *)
| LDrop (i : nat)                   (* the destructor; an empty list takes its place *)
| LInsert (i : nat) (p : Z) (x : elem)   (* insert(iterator, x) *)
| LPushBack (i : nat) (x : elem)    (* emplace_back; the result is where the element is *)
| LPushFront (i : nat) (x : elem)
| LErase (i : nat) (p : Z)          (* erase(iterator) *)
| LPopBack (i : nat)
| LPopFront (i : nat)
| LSet (i : nat) (p : Z) (x : elem) (* *iterator = x *)
| LClear (i : nat)
| LOther (o : op).                  (* another user of the heap *)
Inductive lret := LDone | LBadAlloc | LIter (p : Z) | LGot (p : Z).

Section HList.
  Variable c : cfg.
  Variable sz : Z.   (* sizeof(T) *)

  (** sizeof(_List_node<T>). *)
  Definition node_size : Z := (16 + sz + 7) / 8 * 8.

  (** A word in the buffer or in a list object; any other access is undefined. *)
  Definition in_buffer (a : Z) : bool := (c_base c <=? a) && (a + 8 <=? c_base c + c_size c).
  Definition in_object (w : lheap) (a : Z) : bool :=
    existsb (fun o => (a =? o) || (a =? o + 8) || (a =? o + 16)) (lh_lists w).
  (** The word at [a]. *)
  Definition word (w : lheap) (a : Z) : Z := if in_buffer a then rd (h_mem (lh_heap w)) a else lh_words w a.
  Definition get (w : lheap) (a : Z) : res Z :=
    if (a mod 8 =? 0) && (in_buffer a || in_object w a) then Ok (word w a) else UB.
  Definition put (w : lheap) (a v : Z) : res lheap :=
    if negb (a mod 8 =? 0) then UB
    else if in_buffer a then h <- write_bytes c (lh_heap w) a (le_bytes 8 v) ;; Ok (LH h (lh_words w) (lh_lists w))
    else if in_object w a then Ok (LH (lh_heap w) (fun x => if x =? a then v else lh_words w x) (lh_lists w))
    else UB.

  (** _List_node_base::_M_hook and _M_unhook (src/c++98/list.cc). *)
  Definition hook (w : lheap) (n pos : Z) : res lheap :=
    w <- put w n pos ;;
    x <- get w (pos + 8) ;;
    w <- put w (n + 8) x ;;
    y <- get w (pos + 8) ;;
    w <- put w y n ;;
    put w (pos + 8) n.
  Definition unhook (w : lheap) (p : Z) : res lheap :=
    x <- get w p ;;
    y <- get w (p + 8) ;;
    w <- put w y x ;;
    put w (x + 8) y.

  (** _M_create_node, _M_hook, _M_inc_size (insert(const_iterator, const T&), list.tcc; _M_insert). *)
  Definition insert_node (w : lheap) (a pos : Z) (x : elem) : res (lheap * lret) :=
    '(h, r) <- alloc_allocate c (lh_heap w) node_size 1 ;;
    match r with
    | None => Ok (LH h (lh_words w) (lh_lists w), LBadAlloc)
    | Some n =>
      h <- write_bytes c h (n + 16) x ;;
      w <- hook (LH h (lh_words w) (lh_lists w)) n pos ;;
      s <- get w (a + 16) ;;
      w <- put w (a + 16) (u64 (s + 1)) ;;
      Ok (w, LIter n)
    end.

  (** _M_put_node *)
  Definition put_node (w : lheap) (p : Z) : res lheap :=
    h <- alloc_deallocate c (lh_heap w) p ;; Ok (LH h (lh_words w) (lh_lists w)).

  (** erase and _M_erase. *)
  Definition erase_node (w : lheap) (a p : Z) : res (lheap * lret) :=
    q <- get w p ;;
    s <- get w (a + 16) ;;
    w <- put w (a + 16) (u64 (s - 1)) ;;
    w <- unhook w p ;;
    w <- put_node w p ;;
    Ok (w, LIter q).

  (** _M_clear's loop (list.tcc); [n] bounds it and is chosen larger than the number of nodes. *)
  Fixpoint clear_nodes (n : nat) (w : lheap) (a cur : Z) : res lheap :=
    if cur =? a then Ok w
    else
      match n with
      | O => Fuel
      | S k => nx <- get w cur ;; w <- put_node w cur ;; clear_nodes k w a nx
      end.
  (** _M_init *)
  Definition init_list (w : lheap) (a : Z) : res lheap :=
    w <- put w a a ;;
    w <- put w (a + 8) a ;;
    put w (a + 16) 0.
  Definition clear_list (w : lheap) (a : Z) : res (lheap * lret) :=
    cur <- get w a ;;
    w <- clear_nodes (walk_fuel c) w a cur ;;
    w <- init_list w a ;;
    Ok (w, LDone).

  Definition on_list (w : lheap) (i : nat) (f : Z -> res (lheap * lret)) : res (lheap * lret) :=
    match nth_error (lh_lists w) i with
    | None => UB
    | Some a => f a
    end.

  Definition lstep (w : lheap) (k : lcmd) : res (lheap * lret) :=
    match k with
    | LNew a => w <- init_list (LH (lh_heap w) (lh_words w) (lh_lists w ++ [a])) a ;; Ok (w, LDone)
    | LDrop i => on_list w i (fun a => clear_list w a)
    | LInsert i p x => on_list w i (fun a => insert_node w a p x)
    | LPushBack i x => on_list w i (fun a => insert_node w a a x)
    | LPushFront i x => on_list w i (fun a => p <- get w a ;; insert_node w a p x)
    | LErase i p => on_list w i (fun a => erase_node w a p)
    | LPopBack i => on_list w i (fun a => p <- get w (a + 8) ;; '(w, _) <- erase_node w a p ;; Ok (w, LDone))
    | LPopFront i => on_list w i (fun a => p <- get w a ;; '(w, _) <- erase_node w a p ;; Ok (w, LDone))
    | LSet i p x => on_list w i (fun a => h <- write_bytes c (lh_heap w) (p + 16) x ;; Ok (LH h (lh_words w) (lh_lists w), LDone))
    | LClear i => on_list w i (fun a => clear_list w a)
    | LOther o => '(h, p) <- apply c (lh_heap w) o ;; Ok (LH h (lh_words w) (lh_lists w), LGot p)
    end.
End HList.
