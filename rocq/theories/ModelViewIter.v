(** Model of the iterators of cmmcore/memoryview.h and of assignment through the
    reference operator() returns. *)
From Coq Require Import List ZArith Lia Bool.
From Verif Require Import Base ModelSerialization ModelMemView.
Import ListNotations.
Open Scope Z_scope.

Section Iter.
Context {A : Type}.

(** begin() and end(), memoryview.h:250-258, as positions in the buffer. *)
Definition mv_begin (v : mview A) : Z := moffset v.
Definition mv_end (v : mview A) : Z := moffset v + compute_total_size (mshape v).

(** The elements [*p] for [p] from [begin] until it equals [end], as in
    [for (T& x : view)]. A pointer outside the buffer and the place one past its
    last element is UB. *)
Fixpoint read_run (n : nat) (p : Z) (buf : list A) : res (list A) :=
  match n with
  | O => Ok []
  | S n' => x <- getZ buf p ;; xs <- read_run n' (p + 1) buf ;; Ok (x :: xs)
  end.
Definition mv_iterate (v : mview A) : res (list A) :=
  if Z.of_nat (length (mdata v)) <? mv_end v then UB
  else read_run (Z.to_nat (mv_end v - mv_begin v)) (mv_begin v) (mdata v).

(** [view(i, ...) = x], operator() of memoryview.h:231-247 on the left of an
    assignment: the buffer afterwards. *)
Definition mv_store (v : mview A) (indices : list Z) (x : A) : res (list A) :=
  p <- mv_pos v indices ;; set_nthZ (mdata v) p x.

(** The same view once the buffer it points into has changed; slices and the view
    they were taken from share their data_ (memoryview.h:190-197, 227). *)
Definition mv_with (v : mview A) (buf : list A) : mview A :=
  MV buf (mshape v) (mstrides v) (moffset v).
End Iter.
