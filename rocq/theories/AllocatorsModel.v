(** Several allocator objects (include/xitren/allocators/static_heap_allocator.hpp) on
    several heaps.  Heaps are numbered; [cs m] is the placement of heap [m]. *)
From Verif Require Export HeapSpec.

(** An allocator object: the heap its manager_ refers to (20) and sizeof(Type). *)
Record aobj := AObj { ao_heap : nat; ao_size : Z }.

Inductive acall :=
| AMake (m : nat) (sz : Z)           (* from a heap (36) *)
| AConvert (k : nat) (sz : Z)        (* from allocator [k], rebinding to another type, or copying (38-40) *)
| AAllocate (k : nat) (n : Z)        (* 42-50 *)
| ADeallocate (k : nat) (p n : Z).   (* 52-56; [n] is not used *)

Inductive ares := AMade (k : nat) | APtr (p : Z) | ABadAlloc | ADone.

Definition set_heap (hs : nat -> heap) (m : nat) (h : heap) : nat -> heap :=
  fun i => if (i =? m)%nat then h else hs i.

Section Calls.
  Variable cs : nat -> cfg.

  (** A call through an allocator that does not exist is undefined. *)
  Definition astep (hs : nat -> heap) (os : list aobj) (a : acall) : res ((nat -> heap) * list aobj * ares) :=
    match a with
    | AMake m sz => Ok (hs, os ++ [AObj m sz], AMade (length os))
    | AConvert k sz =>
      match nth_error os k with
      | Some o => Ok (hs, os ++ [AObj (ao_heap o) sz], AMade (length os))
      | None => UB
      end
    | AAllocate k n =>
      match nth_error os k with
      | Some o =>
        '(h, r) <- alloc_allocate (cs (ao_heap o)) (hs (ao_heap o)) (ao_size o) n ;;
        Ok (set_heap hs (ao_heap o) h, os, match r with Some p => APtr p | None => ABadAlloc end)
      | None => UB
      end
    | ADeallocate k p n =>
      match nth_error os k with
      | Some o =>
        h <- alloc_deallocate (cs (ao_heap o)) (hs (ao_heap o)) p ;;
        Ok (set_heap hs (ao_heap o) h, os, ADone)
      | None => UB
      end
    end.
End Calls.
