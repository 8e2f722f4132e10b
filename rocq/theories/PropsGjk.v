(** Closest points and the GJK test: properties C66-C68 and C124-C131. *)
From Coq Require Import List ZArith QArith Qcanon.
From Verif Require Import Base ModelVec ModelGjk SpecNurbs SpecGjk ProofClosest ProofGjk WitnessGjk.
Import ListNotations.
Open Scope Qc_scope.

(** C66: whatever the tolerance, the limit and the earlier content of the simplex *)
Theorem C66_no_collision_sound :
  forall A B s0 cp0 tol n r, gjk A B s0 cp0 tol n = Ok r -> collides r = false -> ~ hulls_meet3 A B.
Proof. exact gjk_false. Qed.
Print Assumptions C66_no_collision_sound.

Theorem C66_runs :
  forall A B cp0 tol n, A <> [] -> B <> [] -> moderate3 gjk_bound A -> moderate3 gjk_bound B ->
  exists r, gjk A B [] cp0 tol n = Ok r /\ Forall (vertex_difference A B) (final_simplex r) /\ (1 <= length (final_simplex r) <= 4)%nat.
Proof. exact gjk_runs. Qed.
Print Assumptions C66_runs.

Example C66_case : exists r, gjk (cube 0 0 0) (cube 5 1 (-1)) [] (V3 0 0 0) eps 25 = Ok r /\ collides r = false /\ NoDup (final_simplex r).
Proof. exact apart_case. Qed.
Example C66_runs_case : cube 0 0 0 <> [] /\ moderate3 gjk_bound (cube 0 0 0) /\ moderate3 gjk_bound (cube 5 1 (-1)).
Proof. split; [discriminate|]. split; apply cubes_moderate; discriminate. Qed.

(** C67: also for triangles of no area, as long as the first two vertices differ *)
Theorem C67_triangle_nearest :
  forall a b c, a <> b -> exists p, closest_on_triangle a b c = Ok p /\ nearest (in_triangle a b c) origin p.
Proof. exact triangle_nearest. Qed.
Print Assumptions C67_triangle_nearest.

(** when they do not, the result is that vertex or not a number *)
Theorem C67_repeated_vertex : forall a c, closest_on_triangle a a c = Ok a \/ closest_on_triangle a a c = UB.
Proof. exact triangle_repeat. Qed.
Print Assumptions C67_repeated_vertex.

Example C67_case : v3i 1 2 3 <> v3i 4 0 1 /\ closest_on_triangle (v3i 1 2 3) (v3i 4 0 1) (v3i (-1) (-1) 2) <> UB.
Proof. exact tri_case. Qed.

(** C68: the version for the origin *)
Theorem C68_segment_nearest_partial :
  forall a b, a <> b -> exists p, closest_on_segm a b = Ok p /\ nearest (on_segment a b) origin p.
Proof. exact segm_nearest. Qed.
Print Assumptions C68_segment_nearest_partial.

(** the version for a given point: false, the parameter is not divided by the
    squared length *)
Theorem C68_segment_outside_refuted :
  exists q a b p, a <> b /\ closest_on_segm_from q a b = Ok p /\ ~ on_segment a b p.
Proof. exact segm_from_outside. Qed.
Print Assumptions C68_segment_outside_refuted.

Theorem C68_segment_far_refuted :
  exists q a b p x, a <> b /\ closest_on_segm_from q a b = Ok p /\ on_segment a b x /\ v3distSq x q < v3distSq p q.
Proof. exact segm_from_far. Qed.
Print Assumptions C68_segment_far_refuted.

Theorem C68_unit_segment_partial :
  forall q a b, v3sq (v3sub b a) = 1 -> exists p, closest_on_segm_from q a b = Ok p /\ nearest (on_segment a b) q p.
Proof. exact segm_from_unit. Qed.
Print Assumptions C68_unit_segment_partial.

Example C68_case : v3sq (v3sub (V3 (qc 3 5) (qc 4 5) 1) (V3 0 0 1)) = 1. Proof. apply BaseFacts.Qceqb_iff. vm_compute. reflexivity. Qed.

(** C124: false, the simplex can cycle for ever, and running out of iterations
    is reported as a collision *)
Theorem C124_collision_refuted :
  exists A B, ~ hulls_meet3 A B /\ forall cp0 n, exists r, gjk A B [] cp0 (qc 1 4503599627370496) n = Ok r /\ collides r = true.
Proof. exact gjk_cycles. Qed.
Print Assumptions C124_collision_refuted.

(** a collision reported with a tetrahedron of positive volume is one, unless the
    origin is within the tolerance of the plane of three vertex differences *)
Theorem C124_collision_converged_partial :
  forall A B cp0 tol n r x0 x1 x2 x3, 0 <= tol -> gjk A B [] cp0 tol n = Ok r ->
  final_simplex r = [x0; x1; x2; x3] -> volume6 x0 x1 x2 x3 <> 0 ->
  hulls_meet3 A B \/
  exists p q r, vertex_difference A B p /\ vertex_difference A B q /\ vertex_difference A B r /\
    0 < v3dot (v3cross (v3sub q p) (v3sub r p)) p /\ v3dot (v3cross (v3sub q p) (v3sub r p)) p <= tol.
Proof. exact gjk_true_converged. Qed.
Print Assumptions C124_collision_converged_partial.

Example C124_case : exists r x0 x1 x2 x3, gjk oct (cube (-1) 0 1) [] (V3 0 0 0) eps 25 = Ok r /\ collides r = true /\
  final_simplex r = [x0; x1; x2; x3] /\ volume6 x0 x1 x2 x3 <> 0.
Proof. exact oct_case. Qed.

(** C125: false, the loop stops at the first separating direction *)
Theorem C125_closest_refuted :
  exists A B, forall cp0, exists r p q, gjk A B [] cp0 (qc 1 4503599627370496) 25 = Ok r /\ collides r = false /\ closest r = Ok p /\
  (exists a b, in_hull3 A a /\ in_hull3 B b /\ q = v3sub a b) /\ v3distSq q origin < v3distSq p origin.
Proof. exact gjk_far. Qed.
Print Assumptions C125_closest_refuted.

Theorem C125_closest_of_simplex_partial :
  forall A B cp0 tol n r, 0 <= tol -> gjk A B [] cp0 tol n = Ok r -> collides r = false -> NoDup (final_simplex r) ->
  exists p, closest r = Ok p /\ nearest (in_hull3 (final_simplex r)) origin p.
Proof. exact gjk_closest. Qed.
Print Assumptions C125_closest_of_simplex_partial.

(** C126: false for four points *)
Theorem C126_simplex_nearest_partial :
  forall s, (1 <= length s <= 3)%nat -> NoDup s -> exists p, closest_on_simplex s = Ok p /\ nearest (in_hull3 s) origin p.
Proof. exact simplex_nearest. Qed.
Print Assumptions C126_simplex_nearest_partial.

Theorem C126_tetrahedron_refuted :
  exists p q, NoDup tetra /\ closest_on_simplex tetra = Ok p /\ in_hull3 tetra q /\ v3distSq q origin < v3distSq p origin.
Proof. exact tetra_far. Qed.
Print Assumptions C126_tetrahedron_refuted.

Example C126_case : exists r, gjk (cube 0 0 0) (cube 5 1 (-1)) [] (V3 0 0 0) eps 25 = Ok r /\ collides r = false /\ NoDup (final_simplex r).
Proof. exact apart_case. Qed.

(** C127 *)
Theorem C127_line_nearest : forall q a b, a <> b -> exists p, closest_on_line q a b = Ok p /\ nearest (on_line a b) q p.
Proof. exact line_nearest. Qed.
Print Assumptions C127_line_nearest.

Example C127_case : v3i 1 2 3 <> v3i 4 0 1. Proof. exact (proj1 tri_case). Qed.

(** C128: false behind the start of the ray *)
Theorem C128_ray_refuted : exists q s d p, d <> V3 0 0 0 /\ closest_on_ray q s d = Ok p /\ ~ on_ray s d p.
Proof. exact ray_behind. Qed.
Print Assumptions C128_ray_refuted.

Theorem C128_ray_front_partial :
  forall q s d, d <> V3 0 0 0 -> 0 <= v3dot (v3sub q s) d -> exists p, closest_on_ray q s d = Ok p /\ nearest (on_ray s d) q p.
Proof. exact ray_nearest. Qed.
Print Assumptions C128_ray_front_partial.

Theorem C128_ray_line_partial :
  forall q s d, d <> V3 0 0 0 -> exists p, closest_on_ray q s d = Ok p /\ nearest (on_line s (v3add s d)) q p.
Proof. exact ray_line. Qed.
Print Assumptions C128_ray_line_partial.

Example C128_case : 0 <= v3dot (v3sub (v3i 1 2 3) (v3i 0 0 1)) (v3i 1 1 (-1)). Proof. vm_compute. discriminate. Qed.

(** C129: false, the point is not added back *)
Theorem C129_triangle_from_refuted :
  exists q a b c p, a <> b /\ closest_on_triangle_from q a b c = Ok p /\ ~ in_triangle a b c p.
Proof. exact triangle_from_outside. Qed.
Print Assumptions C129_triangle_from_refuted.

Theorem C129_triangle_from_relative_partial :
  forall q a b c, a <> b -> exists p, closest_on_triangle_from q a b c = Ok p /\ nearest (in_triangle a b c) q (v3add p q).
Proof. exact triangle_from_nearest. Qed.
Print Assumptions C129_triangle_from_relative_partial.

(** C130 *)
Theorem C130_order :
  (forall a, v3lt a a = false) /\ (forall a b c, v3lt a b = true -> v3lt b c = true -> v3lt a c = true) /\
  (forall a b, v3lt a b = true \/ v3lt b a = true \/ a = b).
Proof. exact (conj v3lt_irrefl (conj v3lt_trans v3lt_total)). Qed.
Print Assumptions C130_order.

(** C131: false, a simplex that was not emptied makes the call throw *)
Theorem C131_reused_simplex_refuted :
  exists A B s, gjk A B [] (V3 0 0 0) eps 25 <> gjk A B s (V3 0 0 0) eps 25 /\ gjk A B s (V3 0 0 0) eps 25 = Throw EInvalidArgument.
Proof. exact gjk_reused. Qed.
Print Assumptions C131_reused_simplex_refuted.
