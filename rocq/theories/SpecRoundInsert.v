(** Specification vocabulary for rounding errors of knot insertion (C237). *)
From Coq Require Import List ZArith QArith Qcanon Bool.
From Verif Require Import Base ModelVec ModelAabb ModelNurbs SpecAabb SpecNurbs SpecCurve SpecRound.
Open Scope Qc_scope.

(** every knot is [t] or further from it than 1e-12, also after a rounding *)
Definition clear_of (u : Qc) (U : list Qc) (t : Qc) : Prop :=
  forall x, In x U -> x = t \/ tol12 < (1 - u) * (x - t) \/ tol12 < (1 - u) * (t - x).
Definition weights_up_to (W : Qc) (P : list vec4) : Prop := forall q, In q P -> Qcabs (ww q) <= W.
(** everything of two curves but the control points is the same *)
Definition same_but_points (c d : ncurve) : Prop :=
  nc_degree d = nc_degree c /\ nc_knots d = nc_knots c /\ nc_periodic d = nc_periodic c /\
  nc_interval d = nc_interval c /\ nc_aabb d = nc_aabb c.
(** control points differ by at most ((1-u)^-k - 1) B, weights by ((1-u)^-k - 1) W *)
Definition points_differ (u : Qc) (k : nat) (B W : Qc) (P Q : list vec4) : Prop :=
  length Q = length P /\
  forall i a b, nth_error P i = Some a -> nth_error Q i = Some b ->
  point_differs_at_most u k B (xyz a) (xyz b) /\ differs_at_most u k W (ww a) (ww b).
