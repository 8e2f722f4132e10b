(** Planar polygons: properties C64, C65, C74 and C111-C116. *)
From Coq Require Import List ZArith QArith Qcanon Permutation.
From Verif Require Import Base ModelVec ModelAabb ModelPolygon SpecNurbs SpecPolygon
  ProofPolygon ProofSat ProofPip ProofConvex ProofHull WitnessPolygon.
Import ListNotations.
Open Scope Qc_scope.

(** C64 *)
Theorem C64_distance_sound : forall P1 P2, polygon_relationship P1 P2 = DISTANCE -> ~ hulls_meet P1 P2.
Proof. exact distance_sound. Qed.
Print Assumptions C64_distance_sound.

Example C64_case : polygon_relationship sq0 tri3 = DISTANCE. Proof. exact (proj2 (proj2 sq_cases)). Qed.

(** C65: false as stated when an edge has length zero *)
Theorem C65_separable_refuted : exists A B, hulls_meet A B /\ forall keep, sat2d keep A B = Ok true.
Proof. exact sat_repeat. Qed.
Print Assumptions C65_separable_refuted.

Theorem C65_separable_sound_partial :
  forall keep A B, no_repeat A \/ (length A = 1)%nat -> no_repeat B \/ (length B = 1)%nat ->
  sat2d keep A B = Ok true -> ~ hulls_meet A B.
Proof. exact sat_sound. Qed.
Print Assumptions C65_separable_sound_partial.

Example C65_case : no_repeat sq0 /\ no_repeat tri3 /\ sat2d (fun _ _ => true) sq0 tri3 = Ok true. Proof. exact sat_case. Qed.

(** C74: for any rearrangement that the sort may produce *)
Theorem C74_hull_vertices :
  forall sort P, (forall cmp l, Permutation (sort cmp l) l) -> exists R, convex_hull2d sort P = Ok R /\ incl R P.
Proof. exact hull_vertices. Qed.
Print Assumptions C74_hull_vertices.

Example C74_case : (forall cmp (l : list vec2), Permutation (isort cmp l) l) /\ convex_hull2d isort cloud = Ok [vi 1 0; vi 6 2; vi 5 7; vi 0 1].
Proof. split; [intros; apply isort_perm|exact cloud_hull]. Qed.

(** C111: false with a repeated vertex *)
Theorem C111_touch_refuted :
  exists A B, polygon_relationship A B = TOUCH /\ hulls_meet A B /\ forall d, d <> V2 0 0 -> ~ separates d A B.
Proof. exact touch_repeat. Qed.
Print Assumptions C111_touch_refuted.

Theorem C111_touch_sound_partial :
  forall P1 P2, no_repeat P1 -> no_repeat P2 -> polygon_relationship P1 P2 = TOUCH ->
  exists d, d <> V2 0 0 /\ separates d P1 P2.
Proof. exact touch_sound. Qed.
Print Assumptions C111_touch_sound_partial.

Example C111_case : convex_ccw sq0 /\ convex_ccw sq2 /\ polygon_relationship sq0 sq2 = TOUCH.
Proof. split; [apply sq_facts|]. split; [apply sq_facts|exact (proj1 (proj2 sq_cases))]. Qed.

(** C112 *)
Theorem C112_convex_classification :
  forall A B, convex_polygon A -> convex_polygon B -> moderate A -> moderate B ->
  (polygon_relationship A B = DISTANCE <-> ~ hulls_meet A B) /\
  (polygon_relationship A B = TOUCH <-> hulls_meet A B /\ exists d, d <> V2 0 0 /\ separates d A B) /\
  (polygon_relationship A B = INTERSECT <-> hulls_meet A B /\ forall d, d <> V2 0 0 -> ~ separates d A B).
Proof. exact relationship_convex. Qed.
Print Assumptions C112_convex_classification.

Example C112_case : convex_ccw sq0 /\ convex_ccw sq1 /\ convex_ccw sq2 /\ convex_ccw tri3 /\ moderate sq0 /\ moderate sq1 /\ moderate sq2 /\ moderate tri3.
Proof. exact sq_facts. Qed.
Example C112_results : polygon_relationship sq0 sq1 = INTERSECT /\ polygon_relationship sq0 sq2 = TOUCH /\ polygon_relationship sq0 tri3 = DISTANCE.
Proof. exact sq_cases. Qed.

(** C113 *)
Theorem C113_outside_box :
  forall P p,
  (forall q, In q P -> ux p < ux q) \/ (forall q, In q P -> ux q <= ux p) \/ (forall q, In q P -> uy p < uy q) \/ (forall q, In q P -> uy q <= uy p) ->
  point_in_polygon P p = false.
Proof. exact pip_outside. Qed.
Print Assumptions C113_outside_box.

Theorem C113_inside_means_hull : forall P p, convex_polygon P -> point_in_polygon P p = true -> in_hull P p.
Proof. exact pip_hull. Qed.
Print Assumptions C113_inside_means_hull.

Theorem C113_interior_is_inside :
  forall P p, (convex_ccw P /\ left_of_all P p) \/ (convex_ccw (rev P) /\ left_of_all (rev P) p) -> point_in_polygon P p = true.
Proof. exact pip_interior. Qed.
Print Assumptions C113_interior_is_inside.

Theorem C113_orientation_irrelevant : forall P p, point_in_polygon (rev P) p = point_in_polygon P p.
Proof. exact pip_rev. Qed.
Print Assumptions C113_orientation_irrelevant.

Theorem C113_first_vertex_irrelevant : forall l1 l2 p, point_in_polygon (l2 ++ l1) p = point_in_polygon (l1 ++ l2) p.
Proof. exact pip_rotate. Qed.
Print Assumptions C113_first_vertex_irrelevant.

(** cutting any polygon, convex or not, along a diagonal *)
Theorem C113_diagonal :
  forall a b l1 l2 p, point_in_polygon (a :: l1 ++ b :: l2) p =
    xorb (point_in_polygon (a :: l1 ++ [b]) p) (point_in_polygon (b :: l2 ++ [a]) p).
Proof. exact pip_cut. Qed.
Print Assumptions C113_diagonal.

Example C113_case : convex_ccw tri3 /\ left_of_all tri3 (vi 6 2) /\ point_in_polygon tri3 (vi 6 2) = true. Proof. exact pip_case. Qed.
Example C113_corners : point_in_polygon sq0 (vi 0 0) = true /\ point_in_polygon sq0 (vi 2 2) = false. Proof. exact pip_corners. Qed.

(** C114: false for collinear points and for small triangles *)
Theorem C114_collinear_refuted : exists P, NoDup P /\ (length P = 3)%nat /\ convex_hull2d isort P = Ok [].
Proof. exact hull_collinear. Qed.
Print Assumptions C114_collinear_refuted.

Theorem C114_small_refuted : exists P, convex_ccw P /\ convex_hull2d isort P = Ok [].
Proof. exact hull_small. Qed.
Print Assumptions C114_small_refuted.

(** repeated points and points on the sides included *)
Theorem C114_hull_partial :
  forall sort P, sorts sort -> (3 <= length P)%nat -> clear_position lit_1em9 P -> not_collinear P ->
  exists R, convex_hull2d sort P = Ok R /\ convex_ccw R /\ incl R P /\ forall p, In p P -> in_hull R p.
Proof. exact hull_clear. Qed.
Print Assumptions C114_hull_partial.

Example C114_case : sorts (@isort vec2) /\ clear_position lit_1em9 grid /\ not_collinear grid /\ convex_hull2d isort grid = Ok [vi 0 0; vi 2 0; vi 2 2; vi 0 2].
Proof. split; [exact isort_sorts|]. split; [exact grid_clear|]. split; [exact grid_solid|exact grid_hull]. Qed.
Example C114_general : forall P, (3 <= length P)%nat -> general_position lit_1em9 P -> clear_position lit_1em9 P /\ not_collinear P.
Proof. exact (fun P L G => conj (general_clear P G) (general_not_collinear P L G)). Qed.

(** C115: only the normals of the first polygon are tried *)
Theorem C115_disjoint_separable_refuted :
  exists A B, convex_ccw A /\ convex_ccw B /\ ~ hulls_meet A B /\
    sat2d (fun _ _ => false) A B = Ok false /\ sat2d (fun _ _ => true) A B = Ok false /\ polygon_relationship A B = DISTANCE.
Proof. exact sat_incomplete. Qed.
Print Assumptions C115_disjoint_separable_refuted.

(** C116: two segments on one line; no polygons at all *)
Theorem C116_segments_refuted :
  exists A B, no_repeat A /\ no_repeat B /\ ~ hulls_meet A B /\ polygon_relationship A B = TOUCH.
Proof. exact segments_apart. Qed.
Print Assumptions C116_segments_refuted.

Theorem C116_empty_refuted : polygon_relationship [] [] = INTERSECT /\ ~ hulls_meet [] [].
Proof. exact empty_intersect. Qed.
Print Assumptions C116_empty_refuted.
