(** C228, C229: iterating over a memory view and writing through one. *)
From Coq Require Import List ZArith Lia Bool.
From Verif Require Import Base ModelSerialization ModelMemView SpecMemView ModelViewIter SpecViewIter ProofMemView ProofViewIter.
Import ListNotations.
Open Scope Z_scope.

(** C228: from begin() to end() one meets the elements of the view. False for a
    slice with a step (the elements of [0:4:2] of 10 11 12 13 are 10 12, the
    iteration gives 10 11), for a single element and for a column. *)
Theorem C228_iterate_refuted :
  (exists (data : list Z) v l, mv_slice (mv_make data [4]) [SRange 0 4 2] = Ok v /\ mshape v = [2] /\
     mv_at v [0] = Ok 10 /\ mv_at v [1] = Ok 12 /\ mv_iterate v = Ok l /\ l = [10; 11]) /\
  (exists (data : list Z) v, mv_index (mv_make data [2]) 1 = Ok v /\ mv_at v [] = Ok 11 /\ mv_iterate v = Ok []) /\
  (exists (data : list Z) v, mv_slice (mv_make data [2; 2]) [SAll; SIdx 1] = Ok v /\ mshape v = [2] /\
     mv_at v [1] = Ok 13 /\ mv_iterate v = Ok [11; 12]).
Proof. exact iterate_refuted. Qed.
Print Assumptions C228_iterate_refuted.

(** ... and true, in row-major order, for contiguous views with a dimension. *)
Theorem C228_iterate_partial :
  forall (A : Type) (v : mview A), contiguous v -> mshape v <> [] ->
  exists l, mv_iterate v = Ok l /\ Z.of_nat (length l) = count (mshape v) /\
    forall idx, in_range idx (mshape v) -> exists x, mv_at v idx = Ok x /\
      nth_error l (Z.to_nat (row_major (mshape v) idx)) = Some x.
Proof. exact @iterate_contiguous. Qed.
Print Assumptions C228_iterate_partial.

Example C228_instance : contiguous (mv_make [1; 2; 3; 4; 5; 6; 7] [2; 3]) /\
  mv_iterate (mv_make [1; 2; 3; 4; 5; 6; 7] [2; 3]) = Ok [1; 2; 3; 4; 5; 6].
Proof. split; [|reflexivity]. apply make_contiguous; [repeat constructor; unfold is_size; lia | cbn; lia | cbn; lia]. Qed.

(** C229: views made from one view share its elements: an assignment through one
    of them is seen through every other one at exactly the places that name the
    same element, and changes nothing else. *)
Theorem C229_write_through :
  forall (A : Type) (data : list A) shape ops1 ops2 v1 v2 idx x,
  int_shape shape -> count shape <= Z.of_nat (length data) -> Z.of_nat (length data) < 2 ^ 63 ->
  Forall plain_op ops1 -> Forall plain_op ops2 ->
  mv_run (mv_make data shape) ops1 = Ok v1 -> mv_run (mv_make data shape) ops2 = Ok v2 ->
  in_range idx (mshape v1) ->
  exists data' root, mv_store v1 idx x = Ok data' /\ length data' = length data /\
    denotes ops1 shape idx root /\ in_range root shape /\
    (forall j, in_range j (mshape v2) -> exists r, denotes ops2 shape j r /\ in_range r shape /\
       (r = root -> mv_at (mv_with v2 data') j = Ok x) /\
       (r <> root -> mv_at (mv_with v2 data') j = mv_at v2 j)) /\
    mv_at (mv_with v1 data') idx = Ok x /\
    (forall j, in_range j (mshape v1) -> j <> idx -> mv_at (mv_with v1 data') j = mv_at v1 j) /\
    (forall k, (Z.to_nat (count shape) <= k)%nat -> nth_error data' k = nth_error data k).
Proof. exact @write_through. Qed.
Print Assumptions C229_write_through.

(** The element an index names is determined. *)
Theorem C229_denotes_one : forall ops shape idx r1 r2,
  denotes ops shape idx r1 -> denotes ops shape idx r2 -> r1 = r2.
Proof. intros ops shape idx r1 r2 H1 H2. exact (denotes_unique ops shape idx r1 H1 r2 H2). Qed.
Print Assumptions C229_denotes_one.

(** Row 1 and column 1 of a 2x3 array meet in the element 5. *)
Example C229_instance :
  let root := mv_make [1; 2; 3; 4; 5; 6] [2; 3] in
  exists row col, mv_run root [OIndex 1] = Ok row /\ mv_run root [OSlice [SAll; SIdx 1]] = Ok col /\
    Forall plain_op [OIndex 1; OSlice [SAll; SIdx 1]] /\ in_range [1] (mshape row) /\
    mv_store row [1] 50 = Ok [1; 2; 3; 4; 50; 6] /\
    mv_at (mv_with col [1; 2; 3; 4; 50; 6]) [1] = Ok 50 /\ mv_at (mv_with col [1; 2; 3; 4; 50; 6]) [0] = Ok 2.
Proof.
  cbv zeta. eexists. eexists. split; [reflexivity|]. split; [reflexivity|].
  split; [repeat constructor; cbn; unfold is_size; lia|]. split; [repeat constructor; lia|]. repeat split; reflexivity.
Qed.
