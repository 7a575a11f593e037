(** * Memory layout of the circular buffer

    Models the constructor of CircularBuffer
    (include/soralog/circular_buffer.hpp:88-102) and the address computation of
    put/get (lines 148-150, 186-188).  size_t arithmetic wraps at 2^64.
    std::vector refuses (throws) sizes above 2^63-1; a failing allocation of a
    smaller size (std::bad_alloc) is not modelled. *)

From Coq Require Import NArith.
Local Open Scope N_scope.

Definition size_t_mod : N := 2 ^ 64.
Definition w64 (x : N) : N := x mod size_t_mod.
Definition vector_max : N := 2 ^ 63 - 1.
Definition int_max : N := 2 ^ 31 - 1.

(** Node (circular_buffer.hpp:30-46): one byte flag, then the item at its
    alignment; size rounded to the alignment.  [size_t] = sizeof(T),
    [align] = alignof(T), which divides sizeof(T). *)
Definition item_offset (align : N) : N := align.
Definition node_size (tsize align : N) : N := align + tsize.

(** element_size_ (lines 90-96). *)
Definition element_size (tsize align padding : N) : N :=
  let offset := padding mod align in
  let padding' := if N.eqb offset 0 then padding else w64 (padding + (align - offset)) in
  w64 (node_size tsize align + padding').

(** raw_data_(capacity_ * element_size_) (line 97). *)
Definition alloc_size (tsize align cap padding : N) : N :=
  w64 (cap * element_size tsize align padding).

(** Offset of slot [i] from the start of the block (lines 100, 150, 188). *)
Definition slot_offset (tsize align padding i : N) : N :=
  w64 (element_size tsize align padding * i).

(** The constructor completes with defined behaviour (lines 97-101): the vector
    accepts the size, the [int] loop counter does not overflow and every node
    is placed inside the block. *)
Definition ctor_defined (tsize align cap padding : N) : Prop :=
  alloc_size tsize align cap padding <= vector_max /\
  cap <= int_max /\
  forall i, i < cap ->
    slot_offset tsize align padding i + node_size tsize align
      <= alloc_size tsize align cap padding.
