(** Refinement, removal and derivative control points: properties C190-C197. *)
From Coq Require Import List ZArith QArith Qcanon Bool Lia.
From Verif Require Import Base BaseFacts ModelVec ModelNurbs ModelSurface ModelRefine
  SpecNurbs SpecCurve SpecDerivative SpecRefine ProofRefineTop ProofRefineMisc ProofDerivCpts ProofDerivSurf ProofRatDeriv WitnessRefine.
Import ListNotations.
Open Scope Qc_scope.

(** C190 *)
Theorem C190_refinement :
  forall n p U P kl al density, (1 <= p)%nat -> valid_knots n p U -> clamped n p U -> length P = S n ->
  (forall x, In x (kl ++ al) -> in_domain n p U x) ->
  coarse (fun x => In x U \/ asked n p U kl al density x) ->
  (exists Q V m, knot_refinement p U P kl al density = Ok (Q, V) /\ (n < m)%nat /\ length Q = S m /\ valid_knots m p V /\
     (exists x, asked n p U kl al density x /\ (multiplicity U x < p)%nat) /\
     (forall x, asked n p U kl al density x -> multiplicity V x = Nat.max p (multiplicity U x)) /\
     (forall x, ~ asked n p U kl al density x -> multiplicity V x = multiplicity U x) /\
     knot V p = knot U p /\ knot V (m + 1) = knot U (n + 1) /\
     (unit_weights P -> unit_weights Q) /\
     (forall c u, coordinate c -> in_domain n p U u -> combination c V m p Q u = combination c U n p P u)) \/
  (knot_refinement p U P kl al density = Throw ERuntime /\ forall x, asked n p U kl al density x -> (p <= multiplicity U x)%nat).
Proof. exact refinement_ok. Qed.
Print Assumptions C190_refinement.

Example C190_case : valid_knots 2 2 par_knots /\ clamped 2 2 par_knots /\ length par_points = 3%nat /\ unit_weights par_points /\
  (forall x, In x ([qc 1 2] ++ []) -> in_domain 2 2 par_knots x) /\ coarse (fun x => In x par_knots \/ asked 2 2 par_knots [qc 1 2] [] 1 x) /\
  knot_refinement 2 par_knots par_points [qc 1 2] [] 1 =
    Ok ([V4 0 0 0 1; V4 (qc 1 2) 1 0 1; V4 1 1 0 1; V4 (qc 3 2) 1 0 1; V4 (qc 2 1) 0 0 1], [0; 0; 0; qc 1 2; qc 1 2; 1; 1; 1]).
Proof. exact par_case. Qed.

(** C191: with weights the points of the curve move *)
Theorem C191_refined_points_refuted :
  exists p U P kl Q V u, valid_knots 1 p U /\ clamped 1 p U /\ length P = 2%nat /\ positive_weights P /\
    (forall x, In x kl -> in_domain 1 p U x) /\ coarse (fun x => In x U \/ asked 1 p U kl [] 1 x) /\
    knot_refinement p U P kl [] 1 = Ok (Q, V) /\ length Q = 3%nat /\ in_domain 1 p U u /\
    rational_point V 2 p Q u <> rational_point U 1 p P u.
Proof. exact weighted_refinement. Qed.
Print Assumptions C191_refined_points_refuted.

(** missing: weights other than one *)
Theorem C191_refined_points_partial :
  forall n p U P kl al density Q V, (1 <= p)%nat -> valid_knots n p U -> clamped n p U -> length P = S n -> unit_weights P ->
  (forall x, In x (kl ++ al) -> in_domain n p U x) ->
  coarse (fun x => In x U \/ asked n p U kl al density x) ->
  knot_refinement p U P kl al density = Ok (Q, V) ->
  unit_weights Q /\ forall u, in_domain n p U u -> rational_point V (length Q - 1) p Q u = rational_point U n p P u.
Proof. exact refined_points. Qed.
Print Assumptions C191_refined_points_partial.
(** hypotheses: [C190_case] *)

(** C192: put a knot in, take it out again, and the last point of the curve is another *)
Theorem C192_removal_refuted :
  exists cps c c' t Q, nc_make cps 2 false = Ok c /\ good_curve c 2 /\ unit_weights cps /\ insert_knot c t 1 = Ok c' /\
    knot_removal 2 (nc_knots c') (nc_cps c') t (qc 1 1000) 1 = Ok Q /\ length Q = 3%nat /\
    nth 2 (nc_cps c) (V4 0 0 0 0) = V4 (qc 2 1) 0 0 1 /\ nth 2 Q (V4 0 0 0 0) = V4 1 (qc 2 1) 0 1.
Proof. exact removal_witness. Qed.
Print Assumptions C192_removal_refuted.

(** missing: which points are left, the number of them only *)
Theorem C192_removal_partial :
  forall p U P u tol num Q, knot_removal p U P u tol num = Ok Q -> (length Q + num = length P)%nat.
Proof. exact removal_length. Qed.
Print Assumptions C192_removal_partial.

(** C193 *)
Theorem C193_derivative_points :
  forall n p U P d, valid_knots n p U -> length P = S n -> (d <= p)%nat -> knot U p < knot U (p + 1) -> inner_multiplicity n p U (p + 1 - d) ->
  exists PK, curve_deriv_cpts p U P d 0 n = Ok PK /\ length PK = S d /\ nth 0 PK [] = P /\
  forall k c t, (k < d)%nat -> coordinate c -> in_domain n p U t ->
    let f := combination c (trimmed k U) (n - k) (p - k) (nth k PK []) in
    let v := combination c (trimmed (S k) U) (n - S k) (p - S k) (nth (S k) PK []) t in
    has_slope f (fun t' => in_domain n p U t' /\ t <= t') t v /\
    (t <= knot U p \/ knot U (n + 1) <= t \/ (multiplicity U t + k + 1 <= p)%nat -> has_slope f (in_domain n p U) t v).
Proof. exact deriv_cpts_ok. Qed.
Print Assumptions C193_derivative_points.

Example C193_case : valid_knots 3 2 kinked /\ length kinked_points = 4%nat /\ knot kinked 2 < knot kinked 3 /\ inner_multiplicity 3 2 kinked (2 + 1 - 2).
Proof. exact kinked_case. Qed.
Example C193_value : exists a b, curve_deriv_cpts 2 kinked kinked_points 2 0 3 = Ok [kinked_points; a; b] /\
  firstn 3 a = [V4 (qc 4 1) (qc 8 1) 0 0; V4 (qc 2 1) (qc (-4) 1) 0 0; V4 (qc 8 1) (qc 4 1) 0 (qc 4 1)] /\
  firstn 2 b = [V4 (qc (-4) 1) (qc (-24) 1) 0 0; V4 (qc 12 1) (qc 16 1) 0 (qc 8 1)].
Proof. exact kinked_values. Qed.

(** C194 *)
Theorem C194_part_of_derivative_points :
  forall n p U P d r1 r2, valid_knots n p U -> length P = S n -> (d <= p)%nat -> knot U p < knot U (p + 1) -> inner_multiplicity n p U (p + 1 - d) ->
  (r1 <= r2 <= n)%nat ->
  exists PK PK', curve_deriv_cpts p U P d 0 n = Ok PK /\ curve_deriv_cpts p U P d r1 r2 = Ok PK' /\ length PK' = S d /\
    forall k i, (k <= d)%nat -> (i + k <= r2 - r1)%nat -> nth i (nth k PK' []) (V4 0 0 0 0) = nth (r1 + i) (nth k PK []) (V4 0 0 0 0).
Proof. exact deriv_cpts_part. Qed.
Print Assumptions C194_part_of_derivative_points.
(** hypotheses: [C193_case] *)

(** C195 *)
Theorem C195_surface_derivative_points :
  forall p q n m ku kv cpts order, valid_knots n p ku -> valid_knots m q kv ->
  length cpts = S m -> (forall row, In row cpts -> length row = S n) ->
  knot ku p < knot ku (p + 1) -> knot kv q < knot kv (q + 1) ->
  inner_multiplicity n p ku (p + 1 - Nat.min p order) -> inner_multiplicity m q kv (q + 1 - Nat.min q order) ->
  exists PKL, surface_deriv_cpts p q ku kv cpts (S n) (S m) 0 n 0 m order = Ok PKL /\
  (forall i j, (i <= n)%nat -> (j <= m)%nat -> entry4 PKL 0 0 i j = nth i (nth j cpts []) (V4 0 0 0 0)) /\
  (forall c k l u v, coordinate c -> in_domain n p ku u -> in_domain m q kv v -> (k < p)%nat -> (l <= q)%nat -> (k + l < order)%nat ->
    let f := fun x => table_surface c ku kv n m p q PKL k l x v in
    let s := table_surface c ku kv n m p q PKL (S k) l u v in
    has_slope f (fun x => in_domain n p ku x /\ u <= x) u s /\
    (u <= knot ku p \/ knot ku (n + 1) <= u \/ (multiplicity ku u + k + 1 <= p)%nat -> has_slope f (in_domain n p ku) u s)) /\
  (forall c k l u v, coordinate c -> in_domain n p ku u -> in_domain m q kv v -> (k <= p)%nat -> (l < q)%nat -> (k + l < order)%nat ->
    let f := fun y => table_surface c ku kv n m p q PKL k l u y in
    let s := table_surface c ku kv n m p q PKL k (S l) u v in
    has_slope f (fun y => in_domain m q kv y /\ v <= y) v s /\
    (v <= knot kv q \/ knot kv (m + 1) <= v \/ (multiplicity kv v + l + 1 <= q)%nat -> has_slope f (in_domain m q kv) v s)).
Proof. exact surface_deriv_ok. Qed.
Print Assumptions C195_surface_derivative_points.

Example C195_case : valid_knots 1 1 seg_knots /\ valid_knots 2 1 strip_v /\ length strip = 3%nat /\ (forall row, In row strip -> length row = 2%nat) /\
  knot seg_knots 1 < knot seg_knots 2 /\ knot strip_v 1 < knot strip_v 2 /\ inner_multiplicity 1 1 seg_knots (1 + 1 - Nat.min 1 2) /\ inner_multiplicity 2 1 strip_v (1 + 1 - Nat.min 1 2).
Proof. exact strip_case. Qed.

(** C196: points of the second and third row only, and another derivative between them *)
Theorem C196_part_of_surface_points_refuted :
  exists p q ku kv cpts PKL PKL',
  valid_knots 1 p ku /\ valid_knots 2 q kv /\ length cpts = 3%nat /\ (forall row, In row cpts -> length row = 2%nat) /\
  knot ku p < knot ku (p + 1) /\ knot kv q < knot kv (q + 1) /\
  inner_multiplicity 1 p ku (p + 1 - Nat.min p 1) /\ inner_multiplicity 2 q kv (q + 1 - Nat.min q 1) /\
  surface_deriv_cpts p q ku kv cpts 2 3 0 1 0 2 1 = Ok PKL /\ surface_deriv_cpts p q ku kv cpts 2 3 0 1 1 2 1 = Ok PKL' /\
  entry4 PKL 0 1 0 1 = V4 0 (qc 2 1) 0 0 /\ entry4 PKL' 0 1 0 0 = V4 0 (qc (-4) 1) 0 (qc (-2) 1).
Proof. exact strip_part. Qed.
Print Assumptions C196_part_of_surface_points_refuted.

(** missing: ranges that do not start with the first row *)
Theorem C196_part_of_surface_points_partial :
  forall p q n m ku kv cpts order r0 r1 s1, valid_knots n p ku -> valid_knots m q kv ->
  length cpts = S m -> (forall row, In row cpts -> length row = S n) ->
  knot ku p < knot ku (p + 1) -> knot kv q < knot kv (q + 1) ->
  inner_multiplicity n p ku (p + 1 - Nat.min p order) -> inner_multiplicity m q kv (q + 1 - Nat.min q order) ->
  (r0 <= r1 <= n)%nat -> (s1 <= m)%nat ->
  exists PKL PKL', surface_deriv_cpts p q ku kv cpts (S n) (S m) 0 n 0 m order = Ok PKL /\ surface_deriv_cpts p q ku kv cpts (S n) (S m) r0 r1 0 s1 order = Ok PKL' /\
  forall k l i j, (k <= p)%nat -> (l <= q)%nat -> (k + l <= order)%nat -> (i + k <= r1 - r0)%nat -> (j + l <= s1)%nat -> entry4 PKL' k l i j = entry4 PKL k l (r0 + i) j.
Proof. exact surface_deriv_part. Qed.
Print Assumptions C196_part_of_surface_points_partial.
(** hypotheses: [C195_case] *)

(** C197 *)
Theorem C197_rational_derivatives :
  forall W order, (order <= 30)%nat -> (order < length W)%nat -> (forall k, (k <= order)%nat -> (order < length (nth k W []))%nat) -> ww (entry2 W 0 0) <> 0 ->
  exists S, rat_surface_derivs W order = Ok S /\ length S = (order + 1)%nat /\ (forall k, (k <= order)%nat -> length (nth k S []) = (order + 1)%nat) /\
    forall k l, (k <= order)%nat -> (l <= order)%nat -> ww (entry2 S k l) = 0 /\ forall c, coordinate3 c -> leibniz c W S k l.
Proof. exact rat_ok. Qed.
Print Assumptions C197_rational_derivatives.

Example C197_case : ww (entry2 quot_table 0 0) <> 0 /\ rat_surface_derivs quot_table 1 = Ok [[V4 1 0 0 0; V4 1 0 0 0]; [V4 0 0 0 0; V4 0 0 0 0]].
Proof. exact quot_case. Qed.
