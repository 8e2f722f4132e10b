(** Planes: properties C69-C72 and C117-C123. *)
From Coq Require Import List ZArith Reals.
From Verif Require Import Base ModelPlane SpecPlane ProofPlane WitnessPlane.
Import ListNotations.
Open Scope R_scope.

Example float_case : float_rounding sample_fl. Proof. exact sample_rounding. Qed.

(** C69 *)
Theorem C69_ray : forall p s d q, plane_ray p s d = Some q -> on_line s d q /\ (on_plane p q \/ (q = s /\ Rabs (eval_eq p q) < R_1em8)).
Proof. exact ray_on_plane. Qed.
Print Assumptions C69_ray.

Theorem C69_line : forall p s e q, plane_line p s e = Some q -> on_segment s e q /\ (on_plane p q \/ (q = s /\ Rabs (eval_eq p q) < R_EPS)).
Proof. exact line_on_plane. Qed.
Print Assumptions C69_line.

Theorem C69_two_planes :
  forall fl p q u v, built fl p -> built fl q -> plane_plane p q = Some (u, v) ->
  on_plane p u /\ on_plane q u /\ on_plane p v /\ on_plane q v /\ u <> v.
Proof. exact plane_plane_on. Qed.
Print Assumptions C69_two_planes.

Theorem C69_three_planes :
  forall p q r x, plane_plane_plane p q r = Some x ->
  on_plane p x /\ on_plane q x /\ on_plane r x /\ forall y, on_plane p y -> on_plane q y -> on_plane r y -> y = x.
Proof. exact three_planes. Qed.
Print Assumptions C69_three_planes.

Example C69_case : exists p u v, plane_of_equation 2 1 1 0 = Ok p /\ built sample_fl plane_default /\ plane_plane p plane_default = Some (u, v).
Proof. exact (skew_meets sample_fl). Qed.

(** C70: an axis-aligned plane x = const never meets any other *)
Theorem C70_planes_meet_refuted :
  forall fl, exists p, built fl p /\ (forall q, plane_plane p q = None) /\ not_parallel p plane_default /\
    exists x, on_plane p x /\ on_plane plane_default x.
Proof. exact never_meets. Qed.
Print Assumptions C70_planes_meet_refuted.

(** C71 *)
Theorem C71_contains_origin_refuted :
  forall fl, float_rounding fl -> exists o n p d, plane_of_origin_normal fl o n = Ok p /\ signed_distance p o = Ok d /\ d <> 0.
Proof. exact origin_off. Qed.
Print Assumptions C71_contains_origin_refuted.

(** what the distance is instead; it vanishes when the first two products do *)
Theorem C71_distance_partial :
  forall fl o n p, plane_of_origin_normal fl o n = Ok p ->
  p_den p <> 0 /\ signed_distance p o = Ok ((rx n * rx o + ry n * ry o) / p_den p).
Proof. exact origin_normal_distance. Qed.
Print Assumptions C71_distance_partial.

(** C72 *)
Theorem C72_coplanar_refuted : forall fl, exists pts, is_pts_coplanar fl R_EPS pts = true /\ ~ coplanar pts.
Proof. exact coplanar_wrong. Qed.
Print Assumptions C72_coplanar_refuted.

(** anything is accepted after three collinear points *)
Theorem C72_collinear_refuted :
  forall fl, float_rounding fl -> forall eps p3 rest, is_pts_coplanar fl eps (RV 0 0 0 :: RV 1 0 0 :: RV 2 0 0 :: p3 :: rest) = true.
Proof. exact collinear_accepts. Qed.
Print Assumptions C72_collinear_refuted.

(** all points but the fourth are tested *)
Theorem C72_coplanar_partial :
  forall fl eps p0 p1 p2 p3 rest,
  fl (ry p0 * rz p1) = ry p0 * rz p1 -> fl (ry p1 * rz p2) = ry p1 * rz p2 -> fl (ry p2 * rz p0) = ry p2 * rz p0 ->
  tri_normal p0 p1 p2 <> RV 0 0 0 ->
  (is_pts_coplanar fl eps (p0 :: p1 :: p2 :: p3 :: rest) = true <->
   forall q, In q rest -> Rabs (volume p0 p1 p2 q) < eps * sqrt (rvsq (tri_normal p0 p1 p2))).
Proof. exact coplanar_rest. Qed.
Print Assumptions C72_coplanar_partial.

Example C72_case : tri_normal (RV 0 0 0) (RV 1 0 0) (RV 0 1 0) <> RV 0 0 0 /\ sample_fl (0 * 0) = 0 * 0.
Proof. exact (coplanar_case sample_fl sample_rounding). Qed.

(** C117 *)
Theorem C117_line_complete :
  forall p s e, R_EPS <= Rabs (eval_eq p e - eval_eq p s) -> (exists q, on_segment s e q /\ on_plane p q) ->
  exists q, plane_line p s e = Some q /\ on_plane p q.
Proof. exact line_complete. Qed.
Print Assumptions C117_line_complete.

Example C117_case : exists q, plane_line plane_default (RV 0 0 (- 1)) (RV 3 0 2) = Some q /\ on_plane plane_default q. Proof. exact line_case. Qed.

(** C118 *)
Theorem C118_equation_origin_refuted : exists p, plane_of_equation 0 0 1 1 = Ok p /\ ~ on_plane p (p_origin p).
Proof. exact origin_off_equation. Qed.
Print Assumptions C118_equation_origin_refuted.

Theorem C118_equation_origin_partial : forall a b c d p, plane_of_equation a b c d = Ok p -> (on_plane p (p_origin p) <-> d = 0).
Proof. exact equation_origin. Qed.
Print Assumptions C118_equation_origin_partial.

(** the plane made of a normal goes through the origin of space, which is its origin *)
Theorem C118_normal_origin_partial : forall fl n p, plane_of_normal fl n = Ok p ->
  p_origin p = RV 0 0 0 /\ on_plane p (p_origin p) /\ forall q, on_plane p q <-> rvdot n q = 0.
Proof. exact normal_origin. Qed.
Print Assumptions C118_normal_origin_partial.
Example C118_case : exists p, plane_of_normal sample_fl (RV 0 0 1) = Ok p. Proof. exact (normal_case sample_fl sample_rounding). Qed.

(** C119 *)
Theorem C119_points_refuted : forall fl, float_rounding fl -> exists p0 p1 p2 p, plane_of_points fl p0 p1 p2 = Ok p /\ ~ on_plane p p0.
Proof. exact points_off. Qed.
Print Assumptions C119_points_refuted.

Theorem C119_points_partial :
  forall fl p0 p1 p2 p, fl (ry p0 * rz p1) = ry p0 * rz p1 -> fl (ry p1 * rz p2) = ry p1 * rz p2 -> fl (ry p2 * rz p0) = ry p2 * rz p0 ->
  plane_of_points fl p0 p1 p2 = Ok p -> on_plane p p0 /\ on_plane p p1 /\ on_plane p p2 /\ (p_a p <> 0 \/ p_b p <> 0 \/ p_c p <> 0).
Proof. exact points_on_plane. Qed.
Print Assumptions C119_points_partial.

(** C120 *)
Theorem C120_ray_refuted : exists q, plane_ray plane_default (RV 0 0 (- 1)) (RV 0 0 (- 1)) = Some q /\ ~ on_ray (RV 0 0 (- 1)) (RV 0 0 (- 1)) q.
Proof. exact ray_behind. Qed.
Print Assumptions C120_ray_refuted.

(** C121 *)
Theorem C121_coordinates_refuted :
  forall fl, float_rounding fl -> exists o x y c, cplane_make fl o x y = Ok c /\ cplane_inverse c (cplane_evaluate c 1 0) <> RV 1 0 0.
Proof. exact cplane_trip. Qed.
Print Assumptions C121_coordinates_refuted.

Theorem C121_coordinates_partial :
  forall fl o x y, fl 1 = 1 -> orthonormal x y -> exists c, cplane_make fl o x y = Ok c /\
  (forall u v, cplane_inverse c (cplane_evaluate c u v) = RV u v 0) /\
  (forall q, let w := cplane_inverse c q in rvadd (cplane_evaluate c (rx w) (ry w)) (rvscale (rvcross x y) (rz w)) = q).
Proof. exact cplane_ok. Qed.
Print Assumptions C121_coordinates_partial.

Example C121_case : orthonormal (RV 1 0 0) (RV 0 1 0) /\ sample_fl 1 = 1. Proof. split; [exact axes_xy|exact (fl_1 sample_fl sample_rounding)]. Qed.

(** C122 *)
Theorem C122_cplane_distance_refuted :
  forall fl, float_rounding fl -> exists o x y c d, orthonormal x y /\ cplane_make fl o x y = Ok c /\ cplane_distance c o = Ok d /\ d <> 0.
Proof. exact cplane_off. Qed.
Print Assumptions C122_cplane_distance_refuted.

Theorem C122_cplane_distance_partial :
  forall fl o x y c q, cplane_make fl o x y = Ok c ->
  p_den (c_plane c) <> 0 /\ cplane_distance c q = Ok ((rvdot (rvcross x y) (rvsub q o) - rz (rvcross x y) * rz o) / p_den (c_plane c)).
Proof. exact cplane_distance_value. Qed.
Print Assumptions C122_cplane_distance_partial.

(** C123 *)
Theorem C123_unit_refuted : forall fl, float_rounding fl -> exists a, rvunit fl a = a /\ rvsq a = / 4.
Proof. exact unit_short. Qed.
Print Assumptions C123_unit_refuted.

Theorem C123_unit_partial : forall fl a, float_like fl -> 4 <= rvsq a <= 2 ^ 100 -> Rabs (rvsq (rvunit fl a) - 1) <= / 2 ^ 22.
Proof. exact unit_accuracy. Qed.
Print Assumptions C123_unit_partial.
