(** Specification vocabulary for iterating over views and writing through them
    (C228, C229). *)
From Coq Require Import List ZArith Lia Bool.
From Verif Require Import Base ModelSerialization ModelMemView SpecMemView.
Import ListNotations.
Open Scope Z_scope.

(** [denotes ops shape idx root]: after the slice() and operator[] calls [ops] on
    a view of the given shape, the index [idx] of the result names the element
    [root] of the original view. *)
Inductive denotes : list mvop -> list Z -> list Z -> list Z -> Prop :=
| d_nil shape idx : denotes [] shape idx idx
| d_slice ss ops shape shape' idx mid :
    py_shape ss shape shape' -> denotes ops shape' idx mid ->
    denotes (OSlice ss :: ops) shape idx (py_index ss shape mid)
| d_index i ops n shape idx mid :
    denotes ops shape idx mid -> denotes (OIndex i :: ops) (n :: shape) idx (i :: mid).

(** Calls without reversed slices. *)
Definition plain_op (o : mvop) : Prop :=
  match o with OSlice ss => positive_steps ss | OIndex i => is_size i end.
