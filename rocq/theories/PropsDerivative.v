(** Continuity and derivatives of curves: properties C153-C157. *)
From Coq Require Import List ZArith QArith Qcanon.
From Verif Require Import Base ModelVec ModelAabb ModelNurbs ModelDerivative SpecAabb SpecNurbs SpecCurve SpecDerivative
  ProofContinuity ProofDerivativeTop ProofHodograph WitnessNurbs WitnessDerivative.
Import ListNotations.
Open Scope Qc_scope.

(** C153 *)
Theorem C153_curve_continuous :
  forall c n,
  good_curve c n -> positive_weights (nc_cps c) -> inner_multiplicity n (nc_degree c) (nc_knots c) (nc_degree c) ->
  lipschitz (evaluate c) (in_curve c n).
Proof. exact continuous_top. Qed.
Print Assumptions C153_curve_continuous.

(** in particular every curve made from points alone *)
Theorem C153_made_curve_continuous :
  forall pts p c n,
  (1 <= p < length pts)%nat -> (p <= 8)%nat -> nc_make3 pts p false = Ok c -> length pts = S n ->
  lipschitz (evaluate c) (in_curve c n).
Proof. exact made_continuous. Qed.
Print Assumptions C153_made_curve_continuous.

Example C153_case : good_curve rat_curve 1 /\ positive_weights (nc_cps rat_curve) /\ nc_make3 swing_points 3 false = Ok swing.
Proof. exact (conj rat_good (conj rat_positive swing_made)). Qed.

(** C154: false in general. The derivative of a rational curve is wrong *)
Theorem C154_derivative_rational_refuted :
  exists c n t d, good_curve c n /\ (1 <= nc_degree c <= 3)%nat /\ positive_weights (nc_cps c) /\ in_curve c n t /\
  nc_derivative c t = Ok d /\ ~ has_velocity (evaluate c) (in_curve c n) t d.
Proof. exact derivative_rational_witness. Qed.
Print Assumptions C154_derivative_rational_refuted.

(** and there is none for a degree of four or more, although the curve has one *)
Theorem C154_derivative_degree_refuted :
  exists c n t, good_curve c n /\ unit_weights (nc_cps c) /\ in_curve c n t /\
  nc_derivative c t = Throw EInvalidArgument /\ exists d, has_velocity (evaluate c) (in_curve c n) t d.
Proof. exact derivative_high_witness. Qed.
Print Assumptions C154_derivative_degree_refuted.

(** With unit weights and a degree of one to three it is the derivative from
    the right, and the two-sided one wherever the curve has one for sure. *)
Theorem C154_derivative_partial :
  forall c n t,
  good_curve c n -> (1 <= nc_degree c <= 3)%nat -> unit_weights (nc_cps c) -> in_curve c n t ->
  exists d, nc_derivative c t = Ok d /\
    has_velocity (evaluate c) (fun t' => in_curve c n t' /\ t <= t') t d /\
    (t <= knot (nc_knots c) (nc_degree c) \/ knot (nc_knots c) (n + 1) <= t \/ (multiplicity (nc_knots c) t < nc_degree c)%nat ->
     has_velocity (evaluate c) (in_curve c n) t d).
Proof. exact derivative_top. Qed.
Print Assumptions C154_derivative_partial.

(** the two degrees outside that range *)
Theorem C154_derivative_high_partial :
  forall c n t,
  good_curve c n -> (4 <= nc_degree c)%nat -> in_curve c n t ->
  nc_derivative c t = Throw EInvalidArgument /\ forall d, nc_derivatives c t d = Throw EInvalidArgument.
Proof. exact derivative_high. Qed.
Print Assumptions C154_derivative_high_partial.

Theorem C154_derivative_zero_partial :
  forall c n t, good_curve c n -> nc_degree c = 0%nat -> in_curve c n t -> nc_derivative c t = UB.
Proof. exact derivative_zero. Qed.
Print Assumptions C154_derivative_zero_partial.

Example C154_case : good_curve swing 4 /\ (1 <= nc_degree swing <= 3)%nat /\ unit_weights (nc_cps swing) /\ inner_multiplicity 4 3 (nc_knots swing) 1 /\
  knot (nc_knots swing) 3 < knot (nc_knots swing) 4 /\ in_curve swing 4 (qc 1 2) /\ multiplicity (nc_knots swing) (qc 1 2) = 0%nat.
Proof. exact swing_ok. Qed.
Example C154_value : nc_derivative swing (qc 1 2) = Ok (V3 (qc 9 16) (qc 15 16) 0).
Proof. exact (proj1 swing_values). Qed.
Example C154_high_case : good_curve quartic 4 /\ nc_degree quartic = 4%nat /\ unit_weights (nc_cps quartic) /\ in_curve quartic 4 (qc 1 2).
Proof. exact quartic_ok. Qed.
Example C154_zero_case : good_curve steps 1 /\ nc_degree steps = 0%nat /\ in_curve steps 1 (qc 1 2).
Proof. exact steps_ok. Qed.

(** C155: false for rational curves *)
Theorem C155_derivative_curve_refuted :
  exists c n d t v, good_curve c n /\ (1 <= nc_degree c)%nat /\ positive_weights (nc_cps c) /\ in_curve c n t /\
  nc_get_derivative c = Ok d /\ evaluate d t = Ok v /\ ~ has_velocity (evaluate c) (in_curve c n) t v.
Proof. exact get_derivative_rational_witness. Qed.
Print Assumptions C155_derivative_curve_refuted.

(** true with unit weights, for every degree *)
Theorem C155_derivative_curve_partial :
  forall c n,
  good_curve c n -> (1 <= nc_degree c)%nat -> unit_weights (nc_cps c) ->
  knot (nc_knots c) (nc_degree c) < knot (nc_knots c) (nc_degree c + 1) -> inner_multiplicity n (nc_degree c) (nc_knots c) (nc_degree c) ->
  exists d, nc_get_derivative c = Ok d /\ good_curve d (n - 1) /\ nc_degree d = (nc_degree c - 1)%nat /\ unit_weights (nc_cps d) /\ interval_current d /\
    (forall t, in_curve d (n - 1) t <-> in_curve c n t) /\
    forall t, in_curve c n t -> exists v, evaluate d t = Ok v /\
      has_velocity (evaluate c) (fun t' => in_curve c n t' /\ t <= t') t v /\
      (t <= knot (nc_knots c) (nc_degree c) \/ knot (nc_knots c) (n + 1) <= t \/ (multiplicity (nc_knots c) t < nc_degree c)%nat ->
       has_velocity (evaluate c) (in_curve c n) t v) /\
      ((nc_degree c <= 3)%nat -> nc_derivative c t = Ok v).
Proof. exact get_derivative_top. Qed.
Print Assumptions C155_derivative_curve_partial.

(** C156: with unit weights and a degree of at most three, each entry of the
    result is the derivative of the one before *)
Theorem C156_higher_derivatives_partial :
  forall c n d,
  good_curve c n -> (nc_degree c <= 3)%nat -> unit_weights (nc_cps c) -> (d <= nc_degree c + 1)%nat ->
  forall t, in_curve c n t -> exists l, nc_derivatives c t d = Ok l /\ length l = d /\
    ((1 <= d)%nat -> evaluate c t = get l 0) /\
    forall k, (k + 1 < d)%nat -> exists v, get l (k + 1) = Ok v /\
      has_velocity (fun t' => l' <- nc_derivatives c t' d ;; get l' k) (fun t' => in_curve c n t' /\ t <= t') t v /\
      (t <= knot (nc_knots c) (nc_degree c) \/ knot (nc_knots c) (n + 1) <= t \/ (multiplicity (nc_knots c) t + k < nc_degree c)%nat ->
       has_velocity (fun t' => l' <- nc_derivatives c t' d ;; get l' k) (in_curve c n) t v).
Proof. exact derivatives_top. Qed.
Print Assumptions C156_higher_derivatives_partial.

(** asking for one more is undefined behaviour, although that derivative is zero *)
Theorem C156_higher_derivatives_refuted :
  forall c n t d,
  good_curve c n -> (nc_degree c <= 3)%nat -> (nc_degree c + 2 <= d)%nat -> in_curve c n t -> nc_derivatives c t d = UB.
Proof. exact derivatives_over. Qed.
Print Assumptions C156_higher_derivatives_refuted.

Example C156_case : (l <- nc_derivatives swing (qc 1 2) 4 ;; get l 2) = Ok (V3 (qc (-15) 4) (qc 3 4) 0) /\ nc_derivatives swing (qc 1 2) 5 = UB.
Proof. exact (proj2 swing_values). Qed.

(** C157: false. At constant speed the second derivative is zero, which
    derivatives(t, d0, d1, d2) finds and second_derivative_fdm does not *)
Theorem C157_second_difference_refuted :
  exists c n t, good_curve c n /\ unit_weights (nc_cps c) /\ (forall u, in_curve c n u -> evaluate c u = Ok (V3 u 0 0)) /\
  in_curve c n (t - fdm_h) /\ in_curve c n (t + fdm_h) /\
  nc_second_derivative_fdm c t = Ok (V3 1 0 0) /\ exists d1, nc_derivatives_fdm c t = Ok (V3 t 0 0, d1, V3 0 0 0).
Proof. exact second_fdm_witness. Qed.
Print Assumptions C157_second_difference_refuted.

(** where the curve is a quadratic in the parameter, derivative_fdm is exact,
    and derivatives(t, d0, d1, d2) almost so *)
Theorem C157_difference_exact_partial :
  forall c p d a t,
  (forall u, t - fdm_h <= u -> u <= t + fdm_h -> evaluate c u = Ok (quad3 p d a u)) ->
  nc_derivative_fdm c t = Ok (ahead d (t + t) a) /\
  exists k, Qcabs (k - (1 + 1)) <= qc 1 1000000000000 /\
    nc_derivatives_fdm c t = Ok (quad3 p d a t, ahead d (t + t) a, V3 (k * vx a) (k * vy a) (k * vz a)).
Proof. exact fdm_exact. Qed.
Print Assumptions C157_difference_exact_partial.

Example C157_case : forall u, qc 1 2 - fdm_h <= u -> u <= qc 1 2 + fdm_h -> evaluate line u = Ok (quad3 (V3 0 0 0) (V3 1 0 0) (V3 0 0 0) u).
Proof. exact (fun u A B => line_quad u (line_window u A B)). Qed.
