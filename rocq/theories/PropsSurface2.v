(** Surfaces: decomposition, continuity, differences, normals and cross
    products; properties C166-C170. *)
From Coq Require Import List ZArith QArith Qcanon.
From Verif Require Import Base ModelVec ModelAabb ModelNurbs ModelSurface ModelDerivative ModelPolygon ModelSurface2
  SpecAabb SpecNurbs SpecCurve SpecSurface SpecDerivative SpecSurface2
  ProofSurfaceBezier ProofSurfaceDiff WitnessSurface WitnessSurface2.
Import ListNotations.
Open Scope Qc_scope.

(** C166: [mu] and [mv] list the interior knots with their multiplicities;
    the patches come row by row *)
Theorem C166_decompose_into_patches :
  forall s n m a mu b c mv d,
  good_surf s n m -> positive_surf s -> intervals_current s -> (1 <= ns_du s)%nat -> (1 <= ns_dv s)%nat ->
  knots_are (ns_ku s) (ns_du s) a mu b -> knots_are (ns_kv s) (ns_dv s) c mv d ->
  exists pieces, ns_decompose s = Ok pieces /\ length pieces = (S (length mu) * S (length mv))%nat /\
    forall i j, (i <= length mu)%nat -> (j <= length mv)%nat ->
      exists q, nth_error pieces (i * S (length mv) + j) = Some q /\
        bezier_patch q s (nth i (a :: map fst mu ++ [b]) 0) (nth (S i) (a :: map fst mu ++ [b]) 0)
                         (nth j (c :: map fst mv ++ [d]) 0) (nth (S j) (c :: map fst mv ++ [d]) 0).
Proof. exact decompose_surface_top. Qed.
Print Assumptions C166_decompose_into_patches.

Example C166_case : good_surf demo_rat 3 2 /\ positive_surf demo_rat /\ intervals_current demo_rat /\
  knots_are (ns_ku demo_rat) (ns_du demo_rat) 0 [(1, 1%nat)] (qc 3 1) /\ knots_are (ns_kv demo_rat) (ns_dv demo_rat) 0 [(qc 1 2, 1%nat)] 1.
Proof. exact (conj demo_rat_good (conj demo_rat_pos (conj demo_rat_iv (conj demo_rat_knots_u demo_rat_knots_v)))). Qed.

(** C167 *)
Theorem C167_surface_continuous :
  forall s n m,
  good_surf s n m -> positive_surf s ->
  inner_multiplicity n (ns_du s) (ns_ku s) (ns_du s) -> inner_multiplicity m (ns_dv s) (ns_kv s) (ns_dv s) ->
  exists K, forall u v u' v', in_surf s n m u v -> in_surf s n m u' v' ->
    exists p p', ns_evaluate s u v = Ok p /\ ns_evaluate s u' v' = Ok p' /\ within3 p p' (K * apart u v u' v').
Proof. exact surface_continuous_top. Qed.
Print Assumptions C167_surface_continuous.

Example C167_case : inner_multiplicity 3 (ns_du demo_rat) (ns_ku demo_rat) (ns_du demo_rat) /\ inner_multiplicity 2 (ns_dv demo_rat) (ns_kv demo_rat) (ns_dv demo_rat).
Proof. exact demo_rat_inner. Qed.

(** C168: with unit weights and a degree of at most two in the direction
    asked for, away from knots, the differences are the partial derivatives *)
Theorem C168_difference_u_partial :
  forall s n m u v,
  good_surf s n m -> unit_surf s -> (ns_du s <= 2)%nat ->
  in_surf s n m (u - fdm_h) v -> u + fdm_h < knot (ns_ku s) (n + 1) -> no_knot (ns_ku s) (u - fdm_h) (u + fdm_h) ->
  exists d, ns_derivative_u s u v = Ok d /\
    has_velocity (fun u' => ns_evaluate s u' v) (fun u' => in_domain n (ns_du s) (ns_ku s) u') u d.
Proof. exact derivative_u_top. Qed.
Print Assumptions C168_difference_u_partial.

Theorem C168_difference_v_partial :
  forall s n m u v,
  good_surf s n m -> unit_surf s -> (ns_dv s <= 2)%nat ->
  in_surf s n m u (v - fdm_h) -> v + fdm_h < knot (ns_kv s) (m + 1) -> no_knot (ns_kv s) (v - fdm_h) (v + fdm_h) ->
  exists d, ns_derivative_v s u v = Ok d /\
    has_velocity (fun v' => ns_evaluate s u v') (fun v' => in_domain m (ns_dv s) (ns_kv s) v') v d.
Proof. exact derivative_v_top. Qed.
Print Assumptions C168_difference_v_partial.

Example C168_case : in_surf demo_unit 3 2 (qc 1 2 - fdm_h) (qc 1 4) /\ qc 1 2 + fdm_h < knot (ns_ku demo_unit) 4 /\ no_knot (ns_ku demo_unit) (qc 1 2 - fdm_h) (qc 1 2 + fdm_h) /\
  in_surf demo_unit 3 2 (qc 1 2) (qc 1 4 - fdm_h) /\ qc 1 4 + fdm_h < knot (ns_kv demo_unit) 3 /\ no_knot (ns_kv demo_unit) (qc 1 4 - fdm_h) (qc 1 4 + fdm_h).
Proof. exact demo_window. Qed.
Example C168_values : ns_derivative_u demo_unit (qc 1 2) (qc 1 4) = Ok (V3 (qc 4 3) 0 (qc 2 3)) /\ ns_derivative_v demo_unit (qc 1 2) (qc 1 4) = Ok (V3 0 (qc 2 1) (qc 5 3)).
Proof. exact demo_derivatives. Qed.

(** C169: false. A square with sides of one half gets a normal of length 1/4 *)
Theorem C169_normal_unit_refuted :
  exists s n m u v, good_surf s n m /\ unit_surf s /\ in_surf s n m u v /\
  forall len, len (V3 0 0 (qc 1 4)) = Some (qc 1 4) -> ns_normal len s u v = Ok (V3 0 0 (qc 1 4)).
Proof. exact normal_witness. Qed.
Print Assumptions C169_normal_unit_refuted.

(** it is perpendicular to both derivatives, whatever the square root does *)
Theorem C169_normal_perpendicular_partial :
  forall len s u v du dv,
  ns_derivative_u s u v = Ok du -> ns_derivative_v s u v = Ok dv ->
  exists k, ns_normal len s u v = Ok k /\ v3dot k du = 0 /\ v3dot k dv = 0.
Proof. exact normal_perp. Qed.
Print Assumptions C169_normal_perpendicular_partial.

(** and a unit vector along their cross product [l] times as long, when [l] is
    the exact length and more than one *)
Theorem C169_normal_unit_partial :
  forall len s u v du dv l,
  ns_derivative_u s u v = Ok du -> ns_derivative_v s u v = Ok dv ->
  len (v3cross du dv) = Some l -> l * l = v3sq (v3cross du dv) -> 1 + DBL_EPS < l ->
  exists k, ns_normal len s u v = Ok k /\ v3sq k = 1 /\ v3cross du dv = V3 (l * vx k) (l * vy k) (l * vz k).
Proof. exact normal_unit. Qed.
Print Assumptions C169_normal_unit_partial.

Example C169_case : ns_derivative_u big_square (qc 1 2) (qc 1 2) = Ok (V3 (qc 2 1) 0 0) /\ ns_derivative_v big_square (qc 1 2) (qc 1 2) = Ok (V3 0 (qc 2 1) 0).
Proof. exact big_derivatives. Qed.

(** C170: false. Surfaces standing still at (1, 0, 0) and (1, 1, 0) *)
Theorem C170_surface_cross_refuted :
  exists a b n m u v c pa pb pc,
  good_surf a n m /\ unit_surf a /\ good_surf b n m /\ unit_surf b /\ in_surf a n m u v /\ in_surf b n m u v /\
  ns_cross a b = Ok c /\ ns_evaluate a u v = Ok pa /\ ns_evaluate b u v = Ok pb /\ ns_evaluate c u v = Ok pc /\
  v3cross pa pb = V3 0 0 1 /\ pc = V3 0 0 0.
Proof. exact cross_witness. Qed.
Print Assumptions C170_surface_cross_refuted.

(** nets of the same size that are not square: undefined behaviour *)
Theorem C170_surface_cross_not_square_refuted :
  forall a b n m, good_surf a n m -> good_surf b n m -> n <> m -> ns_cross a b = UB.
Proof. exact cross_not_square_same. Qed.
Print Assumptions C170_surface_cross_not_square_refuted.

Example C170_case : good_surf demo_unit 3 2 /\ good_surf demo_rat 3 2.
Proof. exact (conj demo_unit_good demo_rat_good). Qed.
