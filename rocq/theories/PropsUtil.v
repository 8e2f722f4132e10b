(** Segments, columns, tolerances, normals of polygons and boxes of directions. *)
From Coq Require Import List ZArith Reals Permutation Sorted.
From Verif Require Import Base ModelVec ModelPlane ModelVecOps ModelUtil SpecPlane SpecVecOps SpecUtil ProofPlane ProofUtil ProofNormals ProofUnique ProofSphereBox WitnessPlane WitnessUtil.
Import ListNotations.
Local Open Scope R_scope.

(** C206: false of segments; the distance is that of the lines *)
Theorem C206_segments_distance_refuted :
  forall fl, float_rounding fl -> exists p1 p2 q1 q2, fst (fst (fst (fst (segments_distance fl p1 p2 q1 q2)))) = 0 /\
  forall a b, on_segment p1 p2 a -> on_segment q1 q2 b -> 4 <= distance a b.
Proof. exact segments_far. Qed.
Print Assumptions C206_segments_distance_refuted.

(** and of parallel segments *)
Theorem C206_segments_parallel_refuted :
  forall fl, float_rounding fl -> exists p1 p2 q1 q2 a b, fst (fst (fst (fst (segments_distance fl p1 p2 q1 q2)))) = 5 /\
  on_segment p1 p2 a /\ on_segment q1 q2 b /\ distance a b = 4.
Proof. exact segments_parallel. Qed.
Print Assumptions C206_segments_parallel_refuted.

(** the lines, when they are not parallel; missing: the ends of the segments *)
Theorem C206_segments_lines_partial :
  forall fl p1 p2 q1 q2, crossing p1 p2 q1 q2 ->
  exists t u, segments_distance fl p1 p2 q1 q2 = (rvlength fl (rvsub (at_param q1 q2 u) (at_param p1 p2 t)), t, u, at_param p1 p2 t, at_param q1 q2 u) /\
  forall s v, distance (at_param p1 p2 t) (at_param q1 q2 u) <= distance (at_param p1 p2 s) (at_param q1 q2 v).
Proof. exact segments_lines. Qed.
Print Assumptions C206_segments_lines_partial.

(** both overloads return the same distance, for all segments *)
Theorem C206_segments_overloads :
  forall fl p1 p2 q1 q2, segments_distance_only fl p1 p2 q1 q2 = fst (fst (fst (fst (segments_distance fl p1 p2 q1 q2)))).
Proof. exact segments_only. Qed.
Print Assumptions C206_segments_overloads.

Example C206_case : float_rounding sample_fl /\ crossing (RV 0 0 0) (RV 2 0 0) (RV 1 (-1) 3) (RV 1 1 3) /\
  segments_distance (fun x => x) (RV 0 0 0) (RV 2 0 0) (RV 1 (-1) 3) (RV 1 1 3) = (3, 1 / 2, 1 / 2, RV 1 0 0, RV 1 0 3).
Proof. exact (conj sample_rounding segments_case). Qed.

(** C207: false; the result is sized by the number of columns *)
Theorem C207_vector_column_tall_refuted :
  forall (A : Type) (d : A) m k c old row0, nth_error m 0 = Some row0 -> (length row0 < length m)%nat -> is_column m k c ->
  vector_column d m k old = UB.
Proof. exact @column_tall. Qed.
Print Assumptions C207_vector_column_tall_refuted.

Theorem C207_vector_column_wide_refuted :
  forall (A : Type) (d : A) m k c old row0, nth_error m 0 = Some row0 -> (length m < length row0)%nat -> is_column m k c ->
  exists x tail, vector_column d m k old = Ok (c ++ x :: tail).
Proof. exact @column_wide. Qed.
Print Assumptions C207_vector_column_wide_refuted.

(** square matrices *)
Theorem C207_vector_column_square_partial :
  forall (A : Type) (d : A) m k c old row0, nth_error m 0 = Some row0 -> length row0 = length m -> is_column m k c ->
  vector_column d m k old = Ok c.
Proof. exact @column_square. Qed.
Print Assumptions C207_vector_column_square_partial.

(** a row without that column *)
Theorem C207_vector_column_throws_partial :
  forall (A : Type) (d : A) m k old row0 i row, nth_error m 0 = Some row0 -> (length m <= length row0)%nat ->
  nth_error m i = Some row -> (length row <= k)%nat -> vector_column d m k old = Throw EOutOfRange.
Proof. exact @column_throw. Qed.
Print Assumptions C207_vector_column_throws_partial.

Example C207_tall : is_column [[1%Z]; [2%Z]] 0 [1%Z; 2%Z] /\ vector_column 0%Z [[1%Z]; [2%Z]] 0 [] = UB.
Proof. exact column_tall_case. Qed.
Example C207_wide : is_column [[1; 2; 3]; [4; 5; 6]]%Z 1 [2; 5]%Z /\ vector_column 0%Z [[1; 2; 3]; [4; 5; 6]]%Z 1 [7; 8; 9]%Z = Ok [2; 5; 9]%Z.
Proof. exact column_wide_case. Qed.
Example C207_square : is_column [[1; 2]; [3; 4]]%Z 1 [2; 4]%Z /\ vector_column 0%Z [[1; 2]; [3; 4]]%Z 1 [7; 8; 9]%Z = Ok [2; 4]%Z.
Proof. split; [repeat constructor|reflexivity]. Qed.

(** C208: false when the vector of normals is not empty: entries are normalised by
    the number of the edge, so old entries change and new ones stay long *)
Theorem C208_polygon_normals_refuted :
  exists P old ns, no_zero_edge P /\ counterclockwise P /\ polygon_normals true P old = Ok ns /\
  (exists n, nth_error ns 3 = Some n /\ r2len n <> 1) /\ nth_error ns 0 <> nth_error old 0.
Proof.
  exists tri345, [RV2 0 2], [RV2 0 1; RV2 0 (-1); RV2 (3 / 5) (4 / 5); RV2 (-3) 0].
  exact (conj (proj1 tri_good) (conj (proj2 tri_good) normals_append_bad)).
Qed.
Print Assumptions C208_polygon_normals_refuted.

(** not normalised: one normal for each edge after the old ones *)
Theorem C208_polygon_normals_partial :
  forall P old, exists ns, polygon_normals false P old = Ok (old ++ ns) /\ length ns = length P /\
  forall i p q, edge P i p q -> exists n, nth_error ns i = Some n /\ perpendicular n p q /\
    r2len n = r2len (RV2 (r2x q - r2x p) (r2y q - r2y p)) /\ (counterclockwise P -> forall x, In x P -> outward n p x).
Proof. exact normals_plain. Qed.
Print Assumptions C208_polygon_normals_partial.

(** normalised, into an empty vector *)
Theorem C208_unit_normals_partial :
  forall P, no_zero_edge P -> exists ns, polygon_normals true P [] = Ok ns /\ length ns = length P /\
  forall i p q, edge P i p q -> exists n, nth_error ns i = Some n /\ perpendicular n p q /\
    r2len n = 1 /\ (counterclockwise P -> forall x, In x P -> outward n p x).
Proof. exact normals_unit. Qed.
Print Assumptions C208_unit_normals_partial.

(** a vertex repeated right after itself *)
Theorem C208_normals_throw_partial :
  forall P i p, edge P i p p -> polygon_normals true P [] = Throw EInvalidArgument.
Proof. exact normals_throw. Qed.
Print Assumptions C208_normals_throw_partial.

Example C208_case : no_zero_edge tri345 /\ counterclockwise tri345 /\ polygon_normals true tri345 [] = Ok [RV2 0 (-1); RV2 (3 / 5) (4 / 5); RV2 (-1) 0].
Proof. exact (conj (proj1 tri_good) (conj (proj2 tri_good) normals_unit_case)). Qed.

(** C209: false; short normals are equal by operator== *)
Theorem C209_unique_normals_refuted :
  exists P s i p q, no_zero_edge P /\ unique_normals false P [] = Ok s /\ edge P i p q /\ forall n, In n s -> ~ perpendicular n p q.
Proof.
  exists tiny_tri, [RV2 0 (- tiny)], 1%nat, (RV2 tiny 0), (RV2 0 tiny). exact tiny_all.
Qed.
Print Assumptions C209_unique_normals_refuted.

(** what holds of every polygon: no two along one line, all of them normals of
    edges, and for every edge one along its normal or equal to it by operator== *)
Theorem C209_unique_normals_partial :
  forall normalize P s0, no_zero_edge P -> distinct_lines s0 -> exists s, unique_normals normalize P s0 = Ok s /\ distinct_lines s /\ incl s0 s /\
  (forall n, In n s -> In n s0 \/ edge_gives normalize P n) /\ forall i p q, edge P i p q -> edge_covered s p q.
Proof. exact unique_ok. Qed.
Print Assumptions C209_unique_normals_partial.

(** also when the normals are not to be normalised, a repeated vertex throws *)
Theorem C209_repeated_vertex_partial :
  forall normalize p q, unique_normals normalize [p; p; q] [] = Throw EInvalidArgument.
Proof. exact unique_repeat. Qed.
Print Assumptions C209_repeated_vertex_partial.

Example C209_case : no_zero_edge tri345 /\ distinct_lines [].
Proof. exact (conj (proj1 tri_good) (conj (fun H => H) (FOP_nil _))). Qed.

(** C210: false; sets with a common direction can be called separable *)
Theorem C210_boxes_of_directions_refuted :
  exists A B p, In p A /\ In p B /\ forall fl sort, float_rounding fl -> sorts_reals sort -> spherical_aabb_test fl sort A B = Ok true.
Proof. exists arc1, arc2, (RV (3 / 5) (4 / 5) 0). exact arcs_share. Qed.
Print Assumptions C210_boxes_of_directions_refuted.

(** single directions *)
Theorem C210_single_directions_partial :
  forall fl sort p q, sorts_reals sort -> spherical_aabb_test fl sort [p] [q] = Ok true -> ~ same_direction p q.
Proof. exact single_sound. Qed.
Print Assumptions C210_single_directions_partial.

(** a set and itself *)
Theorem C210_never_apart_from_itself_partial :
  forall fl sort pts, sorts_reals sort -> pts <> [] -> spherical_aabb_test fl sort pts pts = Ok false.
Proof. exact test_self. Qed.
Print Assumptions C210_never_apart_from_itself_partial.

Theorem C210_symmetric_partial :
  forall fl sort pts1 pts2, sorts_reals sort -> pts1 <> [] -> pts2 <> [] ->
  exists b, spherical_aabb_test fl sort pts1 pts2 = Ok b /\ spherical_aabb_test fl sort pts2 pts1 = Ok b.
Proof. exact test_sym. Qed.
Print Assumptions C210_symmetric_partial.

(** the other question, whether the boxes intersect, has the opposite answer *)
Theorem C210_intersects_partial :
  forall fl sort A B a b, sbox_make fl sort (RV 0 0 0) A = Ok a -> sbox_make fl sort (RV 0 0 0) B = Ok b ->
  (sbox_intersects a b = true <-> spherical_aabb_test fl sort A B = Ok false).
Proof. exact box_intersects. Qed.
Print Assumptions C210_intersects_partial.

(** an empty set *)
Theorem C210_empty_set_refuted :
  forall fl sort pts, sorts_reals sort -> spherical_aabb_test fl sort [] pts = UB.
Proof. exact test_empty. Qed.
Print Assumptions C210_empty_set_refuted.

Example C210_case : sorts_reals insertion /\ float_rounding sample_fl /\ spherical_aabb_test sample_fl insertion [RV 1 1 1] [RV 1 2 3] = Ok true.
Proof. exact (conj insertion_sorts (conj sample_rounding (single_case sample_fl))). Qed.
