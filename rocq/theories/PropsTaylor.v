(** C157 and C168 for every degree: what the difference quotients are. *)
From Coq Require Import List ZArith QArith Qcanon Lia Bool.
From Verif Require Import Base BaseFacts ModelVec ModelAabb ModelNurbs ModelSurface ModelDerivative ModelSurface2
  SpecAabb SpecNurbs SpecCurve SpecSurface SpecDerivative SpecSurface2 SpecTaylor WitnessDerivative ProofTaylor WitnessTaylor.
Import ListNotations.
Open Scope Qc_scope.

(** C168: false of a cubic, (u^3, v, 0), away from all knots *)
Theorem C168_difference_refuted :
  exists s n m u v d, good_surf s n m /\ unit_surf s /\ in_surf s n m (u - fdm_h) v /\ u + fdm_h < knot (ns_ku s) (n + 1) /\
  no_knot (ns_ku s) (u - fdm_h) (u + fdm_h) /\ ns_derivative_u s u v = Ok d /\
  ~ has_velocity (fun u' => ns_evaluate s u' v) (fun u' => in_domain n (ns_du s) (ns_ku s) u') u d.
Proof. exact cubic_refuted. Qed.
Print Assumptions C168_difference_refuted.

(** for unit weights and every degree, in a window without knots: the surface is a
    polynomial c_0 + c_1 (u' - u) + c_2 (u' - u)^2 + ..., its partial derivative is
    c_1, and what is returned is c_1 + c_3 h^2 + c_5 h^4 + ... *)
Theorem C168_expansion_u_partial :
  forall s n m u v, good_surf s n m -> unit_surf s ->
  in_surf s n m (u - fdm_h) v -> u + fdm_h < knot (ns_ku s) (n + 1) -> no_knot (ns_ku s) (u - fdm_h) (u + fdm_h) ->
  exists cx cy cz, length cx = S (ns_du s) /\ length cy = S (ns_du s) /\ length cz = S (ns_du s) /\
    expands (fun u' => ns_evaluate s u' v) (u - fdm_h) (u + fdm_h) u cx cy cz /\
    has_velocity (fun u' => ns_evaluate s u' v) (fun u' => in_domain n (ns_du s) (ns_ku s) u') u (nth3 1 cx cy cz) /\
    ns_derivative_u s u v = Ok (V3 (every_second cx fdm_h) (every_second cy fdm_h) (every_second cz fdm_h)).
Proof. exact taylor_u_top. Qed.
Print Assumptions C168_expansion_u_partial.

Theorem C168_expansion_v_partial :
  forall s n m u v, good_surf s n m -> unit_surf s ->
  in_surf s n m u (v - fdm_h) -> v + fdm_h < knot (ns_kv s) (m + 1) -> no_knot (ns_kv s) (v - fdm_h) (v + fdm_h) ->
  exists cx cy cz, length cx = S (ns_dv s) /\ length cy = S (ns_dv s) /\ length cz = S (ns_dv s) /\
    expands (fun v' => ns_evaluate s u v') (v - fdm_h) (v + fdm_h) v cx cy cz /\
    has_velocity (fun v' => ns_evaluate s u v') (fun v' => in_domain m (ns_dv s) (ns_kv s) v') v (nth3 1 cx cy cz) /\
    ns_derivative_v s u v = Ok (V3 (every_second cx fdm_h) (every_second cy fdm_h) (every_second cz fdm_h)).
Proof. exact taylor_v_top. Qed.
Print Assumptions C168_expansion_v_partial.

Example C168_expansion_case : good_surf cubic 3 1 /\ unit_surf cubic /\ ns_du cubic = 3%nat /\ in_surf cubic 3 1 (qc 1 2 - fdm_h) (qc 1 4) /\
  qc 1 2 + fdm_h < knot (ns_ku cubic) (3 + 1) /\ no_knot (ns_ku cubic) (qc 1 2 - fdm_h) (qc 1 2 + fdm_h) /\
  in_surf cubic 3 1 (qc 1 2) (qc 1 4 - fdm_h) /\ qc 1 4 + fdm_h < knot (ns_kv cubic) (1 + 1) /\ no_knot (ns_kv cubic) (qc 1 4 - fdm_h) (qc 1 4 + fdm_h).
Proof. exact cubic_case. Qed.

(** C157: the same for curves; of the second differences k is about 2, and the
    second derivative is 2 c_2 *)
Theorem C157_expansion_partial :
  forall c n t, good_curve c n -> unit_weights (nc_cps c) ->
  in_curve c n (t - fdm_h) -> t + fdm_h < knot (nc_knots c) (n + 1) -> no_knot (nc_knots c) (t - fdm_h) (t + fdm_h) ->
  exists cx cy cz, length cx = S (nc_degree c) /\ length cy = S (nc_degree c) /\ length cz = S (nc_degree c) /\
    expands (evaluate c) (t - fdm_h) (t + fdm_h) t cx cy cz /\
    has_velocity (evaluate c) (in_curve c n) t (nth3 1 cx cy cz) /\
    nc_derivative_fdm c t = Ok (V3 (every_second cx fdm_h) (every_second cy fdm_h) (every_second cz fdm_h)) /\
    exists k, Qcabs (k - (1 + 1)) <= qc 1 1000000000000 /\
      nc_derivatives_fdm c t = Ok (nth3 0 cx cy cz, V3 (every_second cx fdm_h) (every_second cy fdm_h) (every_second cz fdm_h),
        V3 (k * every_second (tl cx) fdm_h) (k * every_second (tl cy) fdm_h) (k * every_second (tl cz) fdm_h)).
Proof. exact taylor_curve_top. Qed.
Print Assumptions C157_expansion_partial.

Example C157_expansion_case : in_curve swing 4 (qc 1 2 - fdm_h) /\ qc 1 2 + fdm_h < knot (nc_knots swing) (4 + 1) /\ no_knot (nc_knots swing) (qc 1 2 - fdm_h) (qc 1 2 + fdm_h).
Proof. exact swing_case. Qed.
