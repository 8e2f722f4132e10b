(** Vector algebra: properties C158-C165. *)
From Coq Require Import List ZArith Reals.
From Verif Require Import Base ModelPlane ModelNewton ModelVecOps SpecPlane SpecVecOps ProofVecOps WitnessPlane.
Import ListNotations.
Open Scope R_scope.

(** C158 *)
Theorem C158_spherical_round_trip : forall p, of_spherical (to_spherical p) = p.
Proof. exact spherical_round. Qed.
Print Assumptions C158_spherical_round_trip.

Theorem C158_spherical_ranges :
  forall p, rx (to_spherical p) = norm p /\ 0 <= ry (to_spherical p) <= PI /\ - PI < rz (to_spherical p) <= PI.
Proof. exact spherical_ranges. Qed.
Print Assumptions C158_spherical_ranges.

Theorem C158_spherical_back :
  forall r theta phi, 0 < r -> 0 < theta < PI -> - PI < phi <= PI -> to_spherical (of_spherical (RV r theta phi)) = RV r theta phi.
Proof. exact spherical_back. Qed.
Print Assumptions C158_spherical_back.

(** the two-angle versions keep the direction *)
Theorem C158_angles_direction :
  forall p, rvscale (of_angles (to_angles p)) (norm p) = p /\ 0 <= r2x (to_angles p) <= PI /\ - PI < r2y (to_angles p) <= PI.
Proof. exact (fun p => conj (angles_direction p) (angles_ranges p)). Qed.
Print Assumptions C158_angles_direction.

Theorem C158_angles_of_lists : forall xyz tp, to_angles_all xyz tp = Ok (map to_angles xyz).
Proof. exact angles_all. Qed.
Print Assumptions C158_angles_of_lists.

Example C158_case : to_spherical (RV 0 0 (-1)) = RV 1 PI 0 /\ of_spherical (RV 1 PI 0) = RV 0 0 (-1).
Proof. exact south_pole. Qed.

(** C159: == is not an equivalence *)
Theorem C159_equality_refuted : exists a b c, r3eqb a b = true /\ r3eqb b c = true /\ r3eqb a c = false.
Proof. exact r3eq_not_transitive. Qed.
Print Assumptions C159_equality_refuted.

(** and two vec4 that stand for different points are equal *)
Theorem C159_weight_refuted :
  exists a b, r4eqb a b = true /\ r4w a = 1 /\ r4w b = 2 /\ r4to3 a = Ok (RV 2 0 0) /\ r4to3 b = Ok (RV 1 0 0).
Proof. exact r4eq_weight. Qed.
Print Assumptions C159_weight_refuted.

Theorem C159_equality_partial :
  (forall a, r3eqb a a = true) /\ (forall a b, r3eqb a b = r3eqb b a) /\
  forall a b, r3eqb a b = true <-> (Rabs (rx a - rx b) < R_EPS /\ Rabs (ry a - ry b) < R_EPS /\ Rabs (rz a - rz b) < R_EPS).
Proof. exact (conj r3eq_refl (conj r3eq_sym r3eq_close)). Qed.
Print Assumptions C159_equality_partial.

Theorem C159_vec2_partial : forall a b, r3eq2 a b = true <-> r2x b = rx a /\ r2y b = ry a.
Proof. exact r3eq2_iff. Qed.
Print Assumptions C159_vec2_partial.

(** C160 *)
Theorem C160_cross_product :
  forall a b, rvdot (rvcross a b) a = 0 /\ rvdot (rvcross a b) b = 0 /\ rvcross b a = rvneg (rvcross a b) /\
  rvsq (rvcross a b) = rvsq a * rvsq b - rvdot a b * rvdot a b.
Proof. exact cross_facts. Qed.
Print Assumptions C160_cross_product.

Theorem C160_cross_zero : forall a b, rvcross a b = RV 0 0 0 <-> parallel3 a b.
Proof. exact cross_zero. Qed.
Print Assumptions C160_cross_zero.

Theorem C160_cross2 :
  forall a b, r2cross b a = - r2cross a b /\ r2cross a b * r2cross a b + r2dot a b * r2dot a b = r2dot a a * r2dot b b /\
  (r2cross a b = 0 <-> parallel2 a b).
Proof. exact r2cross_facts. Qed.
Print Assumptions C160_cross2.

(** positive when b is to the left of a: b is a turned by t and scaled by l *)
Theorem C160_cross2_sign :
  forall a t l, r2cross a (RV2 (l * (r2x a * cos t - r2y a * sin t)) (l * (r2x a * sin t + r2y a * cos t))) = l * sin t * r2dot a a.
Proof. exact r2cross_turn. Qed.
Print Assumptions C160_cross2_sign.

Theorem C160_cross4 :
  forall a b, r4cross a b = (let c := rvcross (RV (r4x a) (r4y a) (r4z a)) (RV (r4x b) (r4y b) (r4z b)) in RV4 (rx c) (ry c) (rz c) 1).
Proof. exact r4cross_xyz. Qed.
Print Assumptions C160_cross4.

(** for vec4 the version with an output argument is wrong *)
Theorem C160_cross4_refuted :
  exists a b, r4w a = 1 /\ r4w b = 1 /\ r4cross a b = RV4 0 0 1 1 /\ r4cross_into a b = Ok (RV4 0 0 0 1).
Proof. exact cross4_witness. Qed.
Print Assumptions C160_cross4_refuted.

(** C161 *)
Theorem C161_projection :
  forall a b, b <> RV 0 0 0 ->
  exists q, rproject a b = Ok q /\ vector_projection a b = Ok q /\ is_multiple q b /\ rvdot (rvsub a q) b = 0 /\
  forall k, rvsq (rvsub a q) <= rvsq (rvsub a (rvscale b k)).
Proof. exact project_spec. Qed.
Print Assumptions C161_projection.

Theorem C161_projection_on_zero : forall a, rproject a (RV 0 0 0) = UB /\ vector_projection a (RV 0 0 0) = UB.
Proof. exact project_zero. Qed.
Print Assumptions C161_projection_on_zero.

Example C161_case : RV 1 2 3 <> RV 0 0 0. Proof. exact one_two_three. Qed.

(** C162: every call runs over the end of its arrays *)
Theorem C162_dot_product_refuted :
  forall v size xs ys zs result, length xs = size -> length ys = size -> length zs = size -> length result = size ->
  dot_product v size xs ys zs result = UB.
Proof. exact dot_product_overrun. Qed.
Print Assumptions C162_dot_product_refuted.

Example C162_case : length [1; 2] = 2%nat. Proof. reflexivity. Qed.

(** C163: dist and mag2 are not distance and squared length *)
Theorem C163_distance_refuted :
  rdist (RV 4 0 0) (RV 0 0 0) = Some 2 /\ norm (rvsub (RV 4 0 0) (RV 0 0 0)) = 4 /\ rdist (RV 0 0 0) (RV 4 0 0) = None /\
  rdist (RV 1 0 0) (RV 0 1 0) = Some 0 /\ rmag2 (RV 4 0 0) = Some 2 /\ rmag2 (RV (-1) 0 0) = None.
Proof. exact dist_witness. Qed.
Print Assumptions C163_distance_refuted.

Theorem C163_distance_partial : forall a b, rdist2 a b = norm (rvsub a b) * norm (rvsub a b).
Proof. exact dist2_spec. Qed.
Print Assumptions C163_distance_partial.

(** C164: a vec3 of length one half is not collinear to itself *)
Theorem C164_collinear_refuted : forall fl, float_rounding fl -> exists a, a <> RV 0 0 0 /\ r3collinear fl a a = false.
Proof. exact collinear3_short. Qed.
Print Assumptions C164_collinear_refuted.

(** with exact lengths above one, and for vec2, it is exact *)
Theorem C164_collinear3_partial :
  forall a b, 1 + R_EPS < norm a -> 1 + R_EPS < norm b -> (r3collinear (fun x => x) a b = true <-> parallel3 a b).
Proof. exact collinear3_exact. Qed.
Print Assumptions C164_collinear3_partial.

Theorem C164_collinear2_partial :
  forall a b, a <> RV2 0 0 -> b <> RV2 0 0 -> exists r, r2collinear a b = Ok r /\ (r = true <-> parallel2 a b).
Proof. exact collinear2_spec. Qed.
Print Assumptions C164_collinear2_partial.

Theorem C164_collinear2_zero : forall a b, a = RV2 0 0 \/ b = RV2 0 0 -> r2collinear a b = Throw EInvalidArgument.
Proof. exact collinear2_zero. Qed.
Print Assumptions C164_collinear2_zero.

Example C164_case : 1 + R_EPS < norm (RV 2 0 0). Proof. exact two_long. Qed.
Example C164_rounding : float_rounding sample_fl. Proof. exact sample_rounding. Qed.

(** C165: add forgets the fourth component of a vec4, and unit gives no unit vector *)
Theorem C165_add4_refuted : exists a b r, r4w (r4plus a b) = 2 /\ r4w (r4add a b r) = 0.
Proof. exact add4_witness. Qed.
Print Assumptions C165_add4_refuted.

Theorem C165_unit4_refuted :
  forall fl, float_rounding fl ->
  exists a u, r4unit fl a = Ok u /\ r4sq u = 409 / 400 /\ r4x u * r4x u + r4y u * r4y u + r4z u * r4z u = 9 / 400.
Proof. exact unit4_witness. Qed.
Print Assumptions C165_unit4_refuted.

(** a vec4 of weight zero cannot be normalised *)
Theorem C165_unit4_zero_refuted : forall fl, float_rounding fl -> exists a, r4w a = 0 /\ r4unit fl a = UB.
Proof. exact unit4_zero. Qed.
Print Assumptions C165_unit4_zero_refuted.

(** the two code paths of dot differ, and only one of them goes with sqLength *)
Theorem C165_dot4_refuted : exists a, r4dot a a = 0 /\ r4dot_neon a a = 1 /\ r4sq a = 1.
Proof. exact dot4_paths. Qed.
Print Assumptions C165_dot4_refuted.

Theorem C165_add4_partial :
  forall a b r, r4x (r4add a b r) = r4x (r4plus a b) /\ r4y (r4add a b r) = r4y (r4plus a b) /\ r4z (r4add a b r) = r4z (r4plus a b).
Proof. exact add4_others. Qed.
Print Assumptions C165_add4_partial.

Theorem C165_dot4_partial :
  forall a b, r4dot a b = rvdot (RV (r4x a) (r4y a) (r4z a)) (RV (r4x b) (r4y b) (r4z b)) /\ r4dot_neon a b = r4dot a b + r4w a * r4w b.
Proof. exact r4dot_xyz. Qed.
Print Assumptions C165_dot4_partial.

Theorem C165_to_vec3_partial :
  forall a p, r4to3 a = Ok p <-> r4w a <> 0 /\ r4x a = rx p * r4w a /\ r4y a = ry p * r4w a /\ r4z a = rz p * r4w a.
Proof. exact r4to3_iff. Qed.
Print Assumptions C165_to_vec3_partial.
