(** Property theorems C07-C19 and C79-C81: memory views. *)
From Coq Require Import List ZArith Lia Bool.
From Verif Require Import Base BaseFacts ModelSerialization SpecSerialization ModelMemView SpecMemView ProofMemView ProofMemViewSer.
Import ListNotations.
Open Scope Z_scope.

(** C07 *)
Theorem C07_row_major_bijection :
  forall (A : Type) (data : list A) (shape : list Z),
  Forall is_size shape -> count shape <= 2 ^ 64 -> count shape = Z.of_nat (length data) ->
  (forall idx, in_range idx shape ->
     mv_pos (mv_make data shape) idx = Ok (row_major shape idx) /\
     0 <= row_major shape idx < Z.of_nat (length data)) /\
  (forall i j p, in_range i shape -> in_range j shape ->
     mv_pos (mv_make data shape) i = Ok p -> mv_pos (mv_make data shape) j = Ok p -> i = j) /\
  (forall p, 0 <= p < Z.of_nat (length data) ->
     exists idx, in_range idx shape /\ mv_pos (mv_make data shape) idx = Ok p).
Proof. exact @make_bijective. Qed.
Print Assumptions C07_row_major_bijection.

Example C07_instance :
  Forall is_size [2; 3; 2] /\ count [2; 3; 2] = Z.of_nat (length (seq 0 12)) /\
  mv_pos (mv_make (seq 0 12) [2; 3; 2]) [1; 2; 0] = Ok 10.
Proof. split; [repeat constructor; unfold is_size; lia|]. split; reflexivity. Qed.

(** C08 *)
Theorem C08_access_checked :
  forall (A : Type),
  (forall (v : mview A) idx, wf_view v -> Forall is_size idx ->
     (exists e, mv_at v idx = Throw e) <-> ~ in_range idx (mshape v)) /\
  (forall (v : mview A) idx, contiguous v -> in_range idx (mshape v) ->
     exists x, mv_at v idx = Ok x /\
       nth_error (mdata v) (Z.to_nat (moffset v + row_major (mshape v) idx)) = Some x).
Proof. exact @at_checked. Qed.
Print Assumptions C08_access_checked.

Example C08_instance : contiguous (mv_make (seq 0 12) [2; 3; 2]) /\ in_range [1; 2; 0] [2; 3; 2] /\
  mv_at (mv_make (seq 0 12) [2; 3; 2]) [1; 3; 0] = Throw EOutOfRange.
Proof.
  split; [apply make_contiguous; [repeat constructor; unfold is_size; lia | cbn; lia | cbn; lia]|].
  split; [repeat constructor; lia | reflexivity].
Qed.

(** C09 *)
Theorem C09_slice_selects :
  forall (A : Type) (v : mview A) (ss : list slice) (v' : mview A),
  wf_view v -> int_shape (mshape v) -> positive_steps ss -> mv_slice v ss = Ok v' ->
  wf_view v' /\ int_shape (mshape v') /\ mdata v' = mdata v /\
  py_shape ss (mshape v) (mshape v') /\
  forall idx, in_range idx (mshape v') ->
    in_range (py_index ss (mshape v) idx) (mshape v) /\
    mv_pos v' idx = mv_pos v (py_index ss (mshape v) idx).
Proof. exact @slice_positive. Qed.
Print Assumptions C09_slice_selects.

Example C09_instance :
  match mv_slice (mv_make (seq 0 24) [4; 6]) [SRange (-3) 100 2; SRange 1 (-1) 3] with
  | Ok v' => mshape v' = [2; 2] /\ mv_at v' [1; 1] = Ok 22%nat /\
             py_index [SRange (-3) 100 2; SRange 1 (-1) 3] [4; 6] [1; 1] = [3; 4]
  | _ => False
  end.
Proof. vm_compute. auto. Qed.

(** C10 *)
Theorem C10_chains_stay_in_buffer :
  forall (A : Type) (data : list A) (shape : list Z) (ops : list mvop) (v' : mview A),
  int_shape shape -> count shape <= Z.of_nat (length data) -> Z.of_nat (length data) < 2 ^ 63 ->
  Forall (fun o => match o with OSlice ss => positive_steps ss | OIndex i => is_size i end) ops ->
  mv_run (mv_make data shape) ops = Ok v' ->
  forall idx, in_range idx (mshape v') ->
  exists p x, mv_pos v' idx = Ok p /\ 0 <= p < Z.of_nat (length data) /\
              mv_at v' idx = Ok x /\ nth_error data (Z.to_nat p) = Some x.
Proof. exact @chains_in_buffer. Qed.
Print Assumptions C10_chains_stay_in_buffer.

Example C10_instance :
  match mv_run (mv_make (seq 0 24) [4; 6]) [OSlice [SRange 1 4 2]; OSlice [SAll; SRange 0 6 3]; OIndex 1] with
  | Ok v' => mshape v' = [2] /\ mv_at v' [1] = Ok 21%nat
  | _ => False
  end.
Proof. vm_compute. auto. Qed.

(** C11: false when the start is clamped to the extent ... *)
Theorem C11_negative_step_refuted :
  exists (data : list Z) v,
  mv_slice (mv_make data [5]) [SRange 5 0 (-1)] = Ok v /\ Z.of_nat (length data) = 5 /\
  in_range [0] (mshape v) /\ mv_at v [0] = UB.
Proof. exact negative_step_refuted. Qed.
Print Assumptions C11_negative_step_refuted.

(** ... and true when each reversed slice starts at an existing index. Missing
    for C11: the case start = extent, which is the refutation above. *)
Theorem C11_negative_step_partial :
  forall (A : Type) (v : mview A) (ss : list slice) (v' : mview A),
  wf_view v -> int_shape (mshape v) -> mv_slice v ss = Ok v' ->
  wf_view v' /\ int_shape (mshape v') /\ mdata v' = mdata v /\
  (positive_steps ss -> py_shape ss (mshape v) (mshape v')) /\
  (start_below ss (mshape v) -> forall idx, in_range idx (mshape v') ->
     in_range (py_index ss (mshape v) idx) (mshape v) /\
     mv_pos v' idx = mv_pos v (py_index ss (mshape v) idx)).
Proof. exact @slice_spec. Qed.
Print Assumptions C11_negative_step_partial.

Example C11_instance :
  start_below [SRange (-1) 0 (-2)] [5] /\
  match mv_slice (mv_make (seq 0 5) [5]) [SRange (-1) 0 (-2)] with
  | Ok v' => mshape v' = [2] /\ mv_at v' [0] = Ok 4%nat /\ mv_at v' [1] = Ok 2%nat
  | _ => False
  end.
Proof. split; [constructor; [right; cbn; lia | constructor] | vm_compute; auto]. Qed.

(** C12 *)
Theorem C12_slice_rejects :
  forall (A : Type) (v : mview A) (ss : list slice),
  wf_view v -> small_shape (mshape v) -> small_slices ss ->
  (bad_slices ss (mshape v) -> exists e, mv_slice v ss = Throw e) /\
  (~ bad_slices ss (mshape v) -> exists v', mv_slice v ss = Ok v').
Proof. exact @slice_throws. Qed.
Print Assumptions C12_slice_rejects.

Example C12_instance :
  wf_view (mv_make (seq 0 24) [4; 6]) /\ small_shape [4; 6] /\ small_slices [SIdx (-4); SRange 9 0 (-1)] /\
  bad_slices [SIdx (-4); SIdx 6] [4; 6].
Proof.
  split; [apply make_wf; repeat constructor; unfold is_size; lia|]. split; [repeat constructor; lia|].
  split; [repeat constructor; cbn; lia|]. apply bs_later. apply bs_idx. lia.
Qed.

(** C13: false for shapes whose product wraps and for zero-dimensional shapes ... *)
Theorem C13_reshape_refuted :
  (exists v', mv_reshape (mv_make (@nil Z) [0]) [2 ^ 32; 2 ^ 32] = Ok v' /\ mv_at v' [0; 0] = UB) /\
  (exists v', mv_reshape (mv_make (@nil Z) [0]) [] = Ok v' /\ mv_at v' [] = UB) /\
  mv_reshape (MV [5] [] [] 0) [1] = Throw EInvalidArgument.
Proof. exact reshape_refuted. Qed.
Print Assumptions C13_reshape_refuted.

(** ... and true for all others. *)
Theorem C13_reshape_partial :
  forall (A : Type) (v : mview A) (new_shape : list Z),
  contiguous v -> mshape v <> [] -> new_shape <> [] ->
  Forall is_size new_shape -> count new_shape < 2 ^ 64 ->
  (count new_shape <> count (mshape v) -> exists e, mv_reshape v new_shape = Throw e) /\
  (count new_shape = count (mshape v) -> exists v',
     mv_reshape v new_shape = Ok v' /\ contiguous v' /\ mshape v' = new_shape /\ mdata v' = mdata v /\
     forall idx idx', in_range idx (mshape v) -> in_range idx' new_shape ->
       row_major (mshape v) idx = row_major new_shape idx' -> mv_pos v idx = mv_pos v' idx').
Proof. exact @reshape_contiguous. Qed.
Print Assumptions C13_reshape_partial.

Example C13_instance : contiguous (mv_make (seq 0 24) [4; 6]) /\ count [2; 12] = count [4; 6] /\ count [5; 5] <> count [4; 6].
Proof.
  split; [apply make_contiguous; [repeat constructor; unfold is_size; lia | cbn; lia | cbn; lia]|].
  split; [reflexivity | discriminate].
Qed.

(** C14 *)
Theorem C14_reshape_strided_refuted :
  ~ (forall (data : list Z) shape ss v new_shape v' idx idx',
  int_shape shape -> count shape <= Z.of_nat (length data) -> positive_steps ss ->
  mv_slice (mv_make data shape) ss = Ok v ->
  count new_shape = count (mshape v) -> mv_reshape v new_shape = Ok v' ->
  in_range idx (mshape v) -> in_range idx' new_shape ->
  row_major (mshape v) idx = row_major new_shape idx' -> mv_at v idx = mv_at v' idx').
Proof. exact strided_reshape_refuted. Qed.
Print Assumptions C14_reshape_strided_refuted.

(** C15 *)
Theorem C15_view_round_trip :
  forall tn sz (v : mview (list byte)), storable_view tn sz v ->
  exists b v', mv_serialize tn sz v = Ok b /\ mv_deserialize tn sz b = Ok v' /\
    mshape v' = mshape v /\
    forall idx, in_range idx (mshape v) -> exists x, mv_at v idx = Ok x /\ mv_at v' idx = Ok x.
Proof. exact view_round_trip. Qed.
Print Assumptions C15_view_round_trip.

Definition ex_view : mview (list byte) := MV [[0; 1]; [2; 3]; [4; 5]; [6; 7]; [8; 9]; [10; 11]] [2; 2] [2; 1] 2.
Example C15_instance : storable_view [100] 2 ex_view /\
  mv_index (mv_make [[0; 1]; [2; 3]; [4; 5]; [6; 7]; [8; 9]; [10; 11]] [3; 2; 1]) 1 = Ok (MV [[0; 1]; [2; 3]; [4; 5]; [6; 7]; [8; 9]; [10; 11]] [2; 1] [1; 1] 2).
Proof.
  split; [|reflexivity]. split; [|repeat split; try discriminate; cbn; try lia; repeat constructor].
  split; [repeat split; cbn; try lia; repeat constructor; unfold is_size; lia|].
  split; [|cbn; lia]. intros idx HR. cbn in HR.
  inversion HR as [|i ? is1 ? Hi HR1]; subst. inversion HR1 as [|j ? is2 ? Hj HR2]; subst. inversion HR2; subst.
  assert (i = 0 \/ i = 1) as [-> | ->] by lia; assert (j = 0 \/ j = 1) as [-> | ->] by lia; reflexivity.
Qed.

(** C16 *)
Theorem C16_strided_round_trip_refuted :
  (exists data shape ss v b v' idx,
    int_shape shape /\ count shape <= Z.of_nat (length data) /\ positive_steps ss /\
    Forall (fun e => Z.of_nat (length e) = 1) data /\
    mv_slice (mv_make data shape) ss = Ok v /\ mv_serialize [100] 1 v = Ok b /\ mv_deserialize [100] 1 b = Ok v' /\
    in_range idx (mshape v) /\ mv_at v idx = Ok [12] /\ mv_at v' idx = UB) /\
  (exists v b v', mv_run (mv_make (map (fun x => [x]) [10]) [1]) [OIndex 0] = Ok v /\
    mv_serialize [100] 1 v = Ok b /\ mv_deserialize [100] 1 b = Ok v' /\
    mv_at v [] = Ok [10] /\ mv_at v' [] = UB).
Proof. exact (conj strided_serialize_refuted scalar_serialize_refuted). Qed.
Print Assumptions C16_strided_round_trip_refuted.

(** C17: accepted bytes can give a view whose elements are outside its data, by
    hostile strides or by a shape whose product wraps ... *)
Theorem C17_hostile_bytes_refuted :
  (exists buf v idx, mv_deserialize [100] 1 buf = Ok v /\ in_range idx (mshape v) /\ mv_at v idx = UB) /\
  (exists buf v idx, mv_deserialize [100] 1 buf = Ok v /\ mstrides v = [1; 1] /\ in_range idx (mshape v) /\ mv_at v idx = UB).
Proof. exact hostile_refuted. Qed.
Print Assumptions C17_hostile_bytes_refuted.

(** ... but the call itself never reads outside its input. *)
Theorem C17_deserialize_itself_safe_partial :
  forall (tn : list byte) (sz : Z) (buf : list byte),
  0 < sz -> Z.of_nat (length buf) < 2 ^ 62 -> Forall (fun b => 0 <= b < 256) buf ->
  mv_deserialize tn sz buf <> UB.
Proof. exact deserialize_no_ub. Qed.
Print Assumptions C17_deserialize_itself_safe_partial.

Example C17_instance : Forall (fun b => 0 <= b < 256) (repeat 255 40) /\ mv_deserialize [100] 8 (repeat 255 40) = Throw ELength.
Proof. split; [repeat (constructor; [lia|]); constructor | reflexivity]. Qed.

(** C18 *)
Theorem C18_truncated_view_rejected :
  forall tn sz (v : mview (list byte)) b p,
  storable_view tn sz v -> mv_serialize tn sz v = Ok b -> proper_prefix p b ->
  exists e, mv_deserialize tn sz p = Throw e.
Proof. exact truncated_view_rejected. Qed.
Print Assumptions C18_truncated_view_rejected.

Example C18_instance : exists b, mv_serialize [100] 2 ex_view = Ok b /\ proper_prefix (firstn 30 b) b.
Proof.
  eexists. split; [vm_compute; reflexivity|].
  match goal with |- proper_prefix _ ?l => exists (skipn 30 l) end. split; [discriminate | reflexivity].
Qed.

(** C19: whenever size() returns, it returns 1; on a matrix without columns it
    does not return; copy() then keeps one element. *)
Theorem C19_size_refuted :
  (forall A fuel (v : mview A) r, mv_size fuel v = Some r -> r = 1) /\
  (forall A fuel (v : mview A) n0, mshape v = [n0; 0] -> mv_size fuel v = None) /\
  (exists (data : list Z) fuel n v',
    mv_size fuel (mv_make data [2]) = Some n /\ mv_copy n (mv_make data [2]) = Ok v' /\
    in_range [1] (mshape v') /\ mv_at (mv_make data [2]) [1] = Ok 8 /\ mv_at v' [1] = UB).
Proof. exact (conj (fun A => proj1 size_refuted) (conj (fun A => proj2 size_refuted) copy_refuted)). Qed.
Print Assumptions C19_size_refuted.

(** C79 *)
Theorem C79_subview_agrees :
  forall (A : Type) (v : mview A) (i : Z), wf_view v -> is_size i ->
  ((exists e, mv_index v i = Throw e) <-> forall n sh, mshape v = n :: sh -> n <= i) /\
  (forall v', mv_index v i = Ok v' ->
     wf_view v' /\ mdata v' = mdata v /\ (exists n, mshape v = n :: mshape v' /\ i < n) /\
     forall idx, in_range idx (mshape v') -> mv_pos v' idx = mv_pos v (i :: idx)).
Proof. exact @index_agrees. Qed.
Print Assumptions C79_subview_agrees.

Example C79_instance :
  match mv_index (mv_make (seq 0 24) [4; 6]) 2 with Ok v' => mshape v' = [6] /\ mv_at v' [5] = Ok 17%nat | _ => False end.
Proof. vm_compute. auto. Qed.

(** C80: printing a view reads outside it ... *)
Theorem C80_to_string_refuted :
  exists data : list Z, Z.of_nat (length data) = count [2; 3] /\ mv_preview 10 (mv_make data [2; 3]) = UB.
Proof. exact to_string_refuted. Qed.
Print Assumptions C80_to_string_refuted.

(** ... except for one-dimensional views. *)
Theorem C80_to_string_partial :
  forall (A : Type) (v : mview A) n limit, mshape v = [n] -> wf_view v -> 0 <= limit ->
  (forall i, 0 <= i < n -> exists x, mv_at v [i] = Ok x) ->
  exists xs, mv_preview limit v = Ok xs /\ Z.of_nat (length xs) = Z.min limit n /\
    forall k, (k < length xs)%nat -> exists x, nth_error xs k = Some x /\ mv_at v [Z.of_nat k] = Ok x.
Proof. exact @preview_1d. Qed.
Print Assumptions C80_to_string_partial.

Example C80_instance : mv_preview 2 (MV (seq 0 10) [4] [3] 0) = Ok [0; 3]%nat.
Proof. reflexivity. Qed.

(** C81 *)
Theorem C81_huge_step_refuted :
  exists (data : list Z), mv_slice (mv_make data [5]) [SRange 0 5 (2 ^ 31 - 1)] = UB.
Proof. exact huge_step_refuted. Qed.
Print Assumptions C81_huge_step_refuted.
