(** Point inversion: properties C185-C189. *)
From Coq Require Import List ZArith QArith Qcanon Bool Lia.
From Verif Require Import Base BaseFacts ModelVec ModelAabb ModelNurbs ModelNumeric ModelDerivative ModelPolygon ModelSurface ModelSurface2 ModelInversion
  SpecNurbs SpecCurve SpecJoin SpecInversion ProofInversion WitnessJoin WitnessInversion.
Import ListNotations.
Open Scope Qc_scope.

(** C185 *)
Theorem C185_solve2x2 :
  forall m y0 y1,
  (Qcabs (m00 m * m11 m - m01 m * m10 m) < DBL_EPS -> solve2x2 m y0 y1 = None) /\
  (~ Qcabs (m00 m * m11 m - m01 m * m10 m) < DBL_EPS ->
   exists a b, solve2x2 m y0 y1 = Some (a, b) /\
     forall a' b', (m00 m * a' + m01 m * b' = y0 /\ m10 m * a' + m11 m * b' = y1) <-> (a' = a /\ b' = b)).
Proof. exact solve_top. Qed.
Print Assumptions C185_solve2x2.

Example C185_case : solve2x2 (M2 (qc 2 1) 1 1 (qc 3 1)) (qc 5 1) (qc 10 1) = Some (1, qc 3 1) /\ solve2x2 (M2 1 (qc 2 1) (qc 2 1) (qc 4 1)) 1 1 = None.
Proof. split; [|reflexivity]. vm_compute. do 2 f_equal; apply Qc_is_canon; reflexivity. Qed.

(** C186: [b] is on the curve, and the parameter found is not that of [b] *)
Theorem C186_invert_curve_refuted :
  forall len a b tol1 tol2 k, a <> b ->
  exists c u p, nc_make3 [a; b] 1 false = Ok c /\ nc_interval c = (0, 1) /\ evaluate c 1 = Ok b /\
    invert_curve len c b 0 tol1 tol2 k = Ok u /\ evaluate c u = Ok p /\ p <> b.
Proof. exact curve_not_found. Qed.
Print Assumptions C186_invert_curve_refuted.

(** missing: every start but the right one *)
Theorem C186_invert_curve_partial :
  forall len c n P u0 tol1 tol2 k, len (V3 0 0 0) = Some 0 -> 0 <= tol1 ->
  good_curve c n -> (1 <= nc_degree c <= 3)%nat -> unit_weights (nc_cps c) ->
  in_curve c n (u0 - fdm_h) -> in_curve c n (u0 + fdm_h) -> evaluate c u0 = Ok P ->
  invert_curve len c P u0 tol1 tol2 k = Ok u0.
Proof. exact curve_stays_top. Qed.
Print Assumptions C186_invert_curve_partial.

Example C186_case : good_curve bend 2 /\ nc_degree bend = 2%nat /\ unit_weights (nc_cps bend) /\
  in_curve bend 2 (qc 1 2 - fdm_h) /\ in_curve bend 2 (qc 1 2 + fdm_h) /\ evaluate bend (qc 1 2) = Ok (V3 1 (qc 1 2) 0).
Proof. exact bend_case. Qed.

(** C187: from a start in the interval to a result outside of it *)
Theorem C187_invert_in_interval_refuted :
  forall len tol1 tol2 k, len (V3 1 0 0) = Some 1 -> len (V3 (qc 1 2) 0 0) = Some (qc 1 2) -> tol1 < qc 1 2 -> tol2 < 1 -> (1 <= k)%nat ->
  exists c r, nc_make3 [V3 0 0 0; V3 1 0 0] 1 false = Ok c /\ nc_interval c = (0, 1) /\
    invert_curve len c (V3 (qc 3 2) 0 0) 1 tol1 tol2 k = Ok r /\ 1 < r.
Proof. exact leaves_domain. Qed.
Print Assumptions C187_invert_in_interval_refuted.

Example C187_case : taxi_len (V3 1 0 0) = Some 1 /\ taxi_len (V3 (qc 1 2) 0 0) = Some (qc 1 2).
Proof. split; vm_compute; f_equal; apply Qc_is_canon; reflexivity. Qed.

(** C188: on the unit square, whatever point is asked for, the start is the answer *)
Theorem C188_invert_surface_refuted :
  forall len P u v tol1 tol2 k, len (V3 1 0 0) <> Some 0 -> 0 <= tol1 -> 0 <= tol2 ->
  exists s, parallelogram (V3 0 0 0) (V3 1 0 0) (V3 0 1 0) = Ok s /\ ns_iu s = (0, 1) /\ ns_iv s = (0, 1) /\
    (forall u v, ns_evaluate s u v = Ok (V3 u v 0)) /\
    invert_surface len k s P u v tol1 tol2 = Ok (u, v).
Proof. exact surface_not_found. Qed.
Print Assumptions C188_invert_surface_refuted.

(** the same on every parallelogram *)
Theorem C188_invert_parallelogram_refuted :
  forall len o a b P u v tol1 tol2 k, ~ Qcabs (gram a b) < DBL_EPS -> len a <> Some 0 -> 0 <= tol1 -> 0 <= tol2 ->
  exists s, parallelogram o a b = Ok s /\ ns_iu s = (0, 1) /\ ns_iv s = (0, 1) /\
    (forall u v, ns_evaluate s u v = Ok (combine3 o a b u v)) /\
    invert_surface len k s P u v tol1 tol2 = Ok (u, v).
Proof. exact plane_still. Qed.
Print Assumptions C188_invert_parallelogram_refuted.

(** missing: every start but the right one *)
Theorem C188_invert_surface_partial :
  forall len k s P u v tol1 tol2 du dv, len (V3 0 0 0) = Some 0 -> 0 <= tol1 ->
  ns_evaluate s u v = Ok P -> ns_derivative_u s u v = Ok du -> ns_derivative_v s u v = Ok dv ->
  (k = 0%nat \/ ~ Qcabs (gram du dv) < DBL_EPS -> invert_surface len k s P u v tol1 tol2 = Ok (u, v)) /\
  ((1 <= k)%nat -> Qcabs (gram du dv) < DBL_EPS -> invert_surface len k s P u v tol1 tol2 = Throw ERuntime).
Proof. exact surface_stays. Qed.
Print Assumptions C188_invert_surface_partial.

Example C188_case : ~ Qcabs (gram (V3 1 0 0) (V3 0 1 0)) < DBL_EPS /\ exists s, parallelogram (V3 0 0 0) (V3 1 0 0) (V3 0 1 0) = Ok s.
Proof. split; [exact unit_square_gram|]. destruct (plane_made (V3 0 0 0) (V3 1 0 0) (V3 0 1 0)) as (s & E & _). eauto. Qed.

(** C189 *)
Theorem C189_improve_uv_refuted :
  forall du dv delta, improve_uv du dv delta = None.
Proof. exact improve_none. Qed.
Print Assumptions C189_improve_uv_refuted.

Example C189_case : v3add (v3scale (V3 1 0 0) (qc 2 1)) (v3scale (V3 0 1 0) (qc 3 1)) = V3 (qc 2 1) (qc 3 1) 0 /\
  improve_uv (V3 1 0 0) (V3 0 1 0) (V3 (qc 2 1) (qc 3 1) 0) = None.
Proof. split; [|reflexivity]. vm_compute. f_equal; apply Qc_is_canon; reflexivity. Qed.
