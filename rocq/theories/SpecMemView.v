(** Specification vocabulary for memory views (C07-C19, C79-C81). *)
From Coq Require Import List ZArith Lia Bool.
From Verif Require Import Base ModelSerialization ModelMemView.
Import ListNotations.
Open Scope Z_scope.

(** Values a size_t can hold. *)
Definition is_size (z : Z) : Prop := 0 <= z < 2 ^ 64.

(** The number of elements of an array of the given shape (1 for a scalar). *)
Fixpoint count (shape : list Z) : Z :=
  match shape with [] => 1 | n :: sh => n * count sh end.

(** [in_range idx shape]: one index per dimension, each within its extent. *)
Definition in_range (idx shape : list Z) : Prop := Forall2 (fun i n => 0 <= i < n) idx shape.

(** Position of a multi-index in row-major order. *)
Fixpoint row_major (shape idx : list Z) : Z :=
  match shape, idx with
  | _ :: sh, i :: is => i * count sh + row_major sh is
  | _, _ => 0
  end.

(** Extents for which the int conversions inside slice() are lossless. *)
Definition int_shape (shape : list Z) : Prop := Forall (fun n => 0 <= n < 2 ^ 31) shape.

(** ** Python's reading of a slice with positive step over an extent n *)

(** a bound: negative ones count from the end, then clamp into [0, n] *)
Definition py_bound (x n : Z) : Z :=
  let y := if x <? 0 then x + n else x in
  if y <? 0 then 0 else if n <? y then n else y.

Definition sl_start (sl : slice) (n : Z) : Z := match sl with SRange a _ _ => py_bound a n | _ => 0 end.
Definition sl_stop (sl : slice) (n : Z) : Z := match sl with SRange _ b _ => py_bound b n | _ => n end.
Definition sl_step (sl : slice) : Z := match sl with SRange _ _ st => st | _ => 1 end.

(** [len] is the number of indices start, start+step, ... before stop *)
Definition py_len (start stop step len : Z) : Prop :=
  0 <= len /\ forall i, 0 <= i -> (i < len <-> start + i * step < stop).

(** The shape of the result. *)
Inductive py_shape : list slice -> list Z -> list Z -> Prop :=
| ps_rest shape : py_shape [] shape shape
| ps_idx i ss n shape shape' : py_shape ss shape shape' -> py_shape (SIdx i :: ss) (n :: shape) shape'
| ps_all ss n shape shape' : py_shape ss shape shape' -> py_shape (SAll :: ss) (n :: shape) (n :: shape')
| ps_range a b st ss n shape len shape' :
    py_len (py_bound a n) (py_bound b n) st len -> py_shape ss shape shape' ->
    py_shape (SRange a b st :: ss) (n :: shape) (len :: shape').

(** The multi-index of the original that a multi-index of the result denotes. *)
Fixpoint py_index (slices : list slice) (shape idx : list Z) : list Z :=
  match slices, shape with
  | SIdx k :: ss, n :: sh => (if k <? 0 then k + n else k) :: py_index ss sh idx
  | sl :: ss, n :: sh =>
      match idx with
      | i :: is => (sl_start sl n + i * sl_step sl) :: py_index ss sh is
      | [] => []
      end
  | _, _ => idx
  end.

(** Steps that are positive, and slices whose arithmetic fits in an int. *)
Definition positive_steps (slices : list slice) : Prop := Forall (fun sl => 0 < sl_step sl) slices.
Definition small_slices (slices : list slice) : Prop := Forall (fun sl => - 2 ^ 30 < sl_step sl < 2 ^ 30) slices.
Definition small_shape (shape : list Z) : Prop := Forall (fun n => 0 <= n <= 2 ^ 30) shape.

(** Range slices with a negative step start below the extent. *)
Inductive start_below : list slice -> list Z -> Prop :=
| sb_nil shape : start_below [] shape
| sb_cons sl ss n shape : 0 < sl_step sl \/ (sl_step sl < 0 /\ sl_start sl n < n) ->
    start_below ss shape -> start_below (sl :: ss) (n :: shape).

(** What slice() must reject. *)
Inductive bad_slices : list slice -> list Z -> Prop :=
| bs_many sl ss : bad_slices (sl :: ss) []
| bs_idx i ss n shape : (i < - n \/ n <= i) -> bad_slices (SIdx i :: ss) (n :: shape)
| bs_step a b ss n shape : bad_slices (SRange a b 0 :: ss) (n :: shape)
| bs_later sl ss n shape : bad_slices ss shape -> bad_slices (sl :: ss) (n :: shape).

(** One stride per dimension (true of every view the class produces). *)
Definition wf_view {A} (v : mview A) : Prop :=
  length (mstrides v) = length (mshape v) /\ Forall is_size (mshape v) /\
  Forall is_size (mstrides v) /\ is_size (moffset v).

(** A view whose elements lie contiguously, in row-major order, in its buffer. *)
Definition contiguous {A} (v : mview A) : Prop :=
  wf_view v /\
  (forall idx, in_range idx (mshape v) -> mv_pos v idx = Ok (moffset v + row_major (mshape v) idx)) /\
  moffset v + count (mshape v) <= Z.of_nat (length (mdata v)) /\
  Z.of_nat (length (mdata v)) < 2 ^ 63.

(** A contiguous view that fits in memory once serialized: elements are [sz]-byte
    object representations, [tn] is the type name. *)
Definition storable_view (tn : list byte) (sz : Z) (v : mview (list byte)) : Prop :=
  contiguous v /\ mshape v <> [] /\ 0 < sz /\
  Forall (fun e => Z.of_nat (length e) = sz) (mdata v) /\
  Z.of_nat (length (mdata v)) * sz < 2 ^ 62 /\ Z.of_nat (length tn) <= 2 ^ 32 /\
  Z.of_nat (length (mshape v)) <= 2 ^ 32.
