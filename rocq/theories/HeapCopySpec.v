(** Vocabulary for copied heaps. *)
From Verif Require Export HeapCopyModel.

(** The copy is another object of the same type: its bytes, from the start of its buffer
    to the end of x_start_, overlap none of the original's. *)
Record beside (c : cfg) (d : Z) : Prop := {
  be_align : d mod 8 = 0;
  be_low : 0 < c_base c + d;
  be_top : c_xs c + d + 16 < W64;
  be_apart : disjoint (c_base c) (c_xs c + 16 - c_base c) (c_base c + d) (c_xs c + 16 - c_base c)
}.

(** Address [a] is in the buffer of the original / of the copy. *)
Definition in_original (c : cfg) (a : Z) : Prop := c_base c <= a < c_base c + c_size c.
Definition in_copy (c : cfg) (d a : Z) : Prop := in_original c (a - d).

(** What the getters and the statistics show, and whether a callback is set. *)
Definition shows_same (h1 h2 : heap) : Prop :=
  free_heap_size h1 = free_heap_size h2 /\
  minimum_ever_free_heap_size h1 = minimum_ever_free_heap_size h2 /\
  h_allocs h1 = h_allocs h2 /\ h_frees h1 = h_frees h2 /\ h_cb h1 = h_cb h2.

(** The free stretch a block at [p] would be taken from is the lowest one. *)
Definition lowest_gap (c : cfg) (l : list held) (p : Z) : Prop :=
  forall a n, gap c l a n -> p - 16 <= a.

Definition of_pair (w : who) (t : pair) : heap :=
  match w with Original => p_orig t | Copy => p_copy t end.
