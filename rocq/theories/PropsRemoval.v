(** Taking knots out: properties C192 and C236. *)
From Coq Require Import List ZArith QArith Qcanon Bool.
From Verif Require Import Base ModelVec ModelNurbs ModelRefine SpecNurbs SpecCurve SpecRefine ProofRemoval WitnessRefine WitnessRemoval.
Import ListNotations.
Open Scope Qc_scope.

(** C192: what one removal returns, for every curve. [A] are the points found from
    the left, [B] those found from the right. With an even distance between the
    first and the last point that changes, the middle one stays and no tolerance
    is compared; the last point is dropped in any case. *)
Theorem C192_removal_exact :
  forall n p U P u tol, valid_knots n p U -> length P = S n -> knot U p < u -> u < knot U (n + 1) -> separated U u ->
  (1 <= multiplicity U u <= p)%nat ->
  exists r A B Q, (p < r <= n)%nat /\ knot U r <= u /\ u < knot U (r + 1) /\
    let first := (r - p)%nat in
    let last := (r - multiplicity U u)%nat in
    let half := ((last - first) / 2)%nat in
    let mid := (first + half)%nat in
    (forall i, (i < first)%nat -> A i = nth i P (V4 0 0 0 0)) /\
    (forall i, (first <= i <= mid)%nat -> nth i P (V4 0 0 0 0) = put_in U p u i (A (i - 1)%nat) (A i)) /\
    (forall i, (last <= i)%nat -> B i = nth (i + 1) P (V4 0 0 0 0)) /\
    (forall i, (last - half <= i <= last)%nat -> nth i P (V4 0 0 0 0) = put_in U p u i (B (i - 1)%nat) (B i)) /\
    knot_removal p U P u tol 1 = Ok Q /\ length Q = n /\
    (Nat.even (last - first) = true -> 0 <= tol ->
       forall i, (i < n)%nat -> nth i Q (V4 0 0 0 0) = stitched A mid (nth mid P (V4 0 0 0 0)) B i) /\
    (Nat.even (last - first) = true -> tol < 0 -> forall i, (i < n)%nat -> nth i Q (V4 0 0 0 0) = nth i P (V4 0 0 0 0)) /\
    (Nat.even (last - first) = false -> within4 (A mid) (B mid) tol ->
       forall i, (i < n)%nat -> nth i Q (V4 0 0 0 0) = stitched A mid (A mid) B i) /\
    (Nat.even (last - first) = false -> ~ within4 (A mid) (B mid) tol -> forall i, (i < n)%nat -> nth i Q (V4 0 0 0 0) = nth i P (V4 0 0 0 0)).
Proof. exact removal_exact. Qed.
Print Assumptions C192_removal_exact.

Example C192_exact_case : valid_knots 4 3 spike_knots /\ length spike = 5%nat /\ knot spike_knots 3 < qc 1 2 /\ qc 1 2 < knot spike_knots (4 + 1) /\ separated spike_knots (qc 1 2) /\ multiplicity spike_knots (qc 1 2) = 1%nat.
Proof. exact spike_case. Qed.
Example C192_exact_value : knot_removal 2 bump_knots bump (qc 1 2) 1 1 = Ok [V4 0 0 0 1; V4 1 0 0 1; V4 (qc 2 1) (qc 8 1) 0 1] /\
  knot_removal 2 bump_knots bump (qc 1 2) (qc 20 1) 1 = Ok [V4 0 0 0 1; V4 (qc 2 1) 0 0 1; V4 1 (qc 16 1) 0 1].
Proof. exact bump_removed. Qed.

(** C192: a knot put in and taken out leaves the points, but for one that is too much
    in the middle, for which the last is missing *)
Theorem C192_roundtrip_partial :
  forall c n t c' tol, good_curve c n -> knot (nc_knots c) (nc_degree c) < t -> t < knot (nc_knots c) (n + 1) -> separated (nc_knots c) t ->
  (1 + multiplicity (nc_knots c) t <= nc_degree c)%nat -> insert_knot c t 1 = Ok c' -> 0 <= tol ->
  exists mid X Q, (1 <= mid <= n)%nat /\ knot_removal (nc_degree c) (nc_knots c') (nc_cps c') t tol 1 = Ok Q /\
    Q = firstn (S n) (firstn mid (nc_cps c) ++ X :: skipn mid (nc_cps c)).
Proof. exact roundtrip. Qed.
Print Assumptions C192_roundtrip_partial.
(** hypotheses: the curve of [C192_removal_refuted] *)

(** C192: points away from the knot are returned as they were, for any number of removals *)
Theorem C192_far_points :
  forall n p U P u tol num Q r, valid_knots n p U -> length P = S n -> knot U p <= u -> u < knot U (n + 1) -> separated U u ->
  (p <= r <= n)%nat -> knot U r <= u -> u < knot U (r + 1) -> knot_removal p U P u tol num = Ok Q -> length Q = (S n - num)%nat /\
  forall i, (i < length Q)%nat -> (i + p + num <= r \/ r + num <= i + multiplicity U u)%nat -> nth i Q (V4 0 0 0 0) = nth i P (V4 0 0 0 0).
Proof. exact removal_frame. Qed.
Print Assumptions C192_far_points.

(** C236: no cubic without the knot comes within ten of these points, and yet for
    every tolerance they are changed *)
Theorem C236_tolerance_refuted :
  exists U V P u Q, valid_knots 4 3 U /\ length P = 5%nat /\ knot U 3 < u /\ u < knot U 5 /\ separated U u /\ multiplicity U u = 1%nat /\
    (forall c c', good_curve c 3 -> nc_degree c = 3%nat -> nc_knots c = V -> insert_knot c u 1 = Ok c' -> nc_knots c' = U /\
       exists i, (i < 5)%nat /\ ~ within4 (nth i (nc_cps c') (V4 0 0 0 0)) (nth i P (V4 0 0 0 0)) (qc 10 1)) /\
    (forall tol, 0 <= tol -> knot_removal 3 U P u tol 1 = Ok Q) /\
    nth 1 P (V4 0 0 0 0) = V4 1 0 0 1 /\ nth 1 Q (V4 0 0 0 0) = V4 (qc 2 1) 0 0 1.
Proof. exact tolerance_refuted. Qed.
Print Assumptions C236_tolerance_refuted.

(** the same wherever degree minus multiplicity is even: no tolerance
    changes the result *)
Theorem C236_tolerance_ignored :
  forall n p U P u tol tol', valid_knots n p U -> length P = S n -> knot U p < u -> u < knot U (n + 1) -> separated U u ->
  (1 <= multiplicity U u <= p)%nat -> Nat.even (p - multiplicity U u) = true -> 0 <= tol -> 0 <= tol' ->
  knot_removal p U P u tol 1 = knot_removal p U P u tol' 1.
Proof. exact tolerance_ignored. Qed.
Print Assumptions C236_tolerance_ignored.
(** hypotheses: [C192_exact_case] *)

(** missing: an even number of degrees above the multiplicity, and more than one removal *)
Theorem C236_tolerance_partial :
  forall n p U P u tol, valid_knots n p U -> length P = S n -> knot U p < u -> u < knot U (n + 1) -> separated U u ->
  (1 <= multiplicity U u <= p)%nat -> Nat.even (p - multiplicity U u) = false ->
  exists r A B Q, (p < r <= n)%nat /\ knot U r <= u /\ u < knot U (r + 1) /\
    let mid := (r - p + (p - multiplicity U u) / 2)%nat in
    (forall i, (i < r - p)%nat -> A i = nth i P (V4 0 0 0 0)) /\
    (forall i, (r - p <= i <= mid)%nat -> nth i P (V4 0 0 0 0) = put_in U p u i (A (i - 1)%nat) (A i)) /\
    (forall i, (r - multiplicity U u <= i)%nat -> B i = nth (i + 1) P (V4 0 0 0 0)) /\
    (forall i, (mid < i <= r - multiplicity U u)%nat -> nth i P (V4 0 0 0 0) = put_in U p u i (B (i - 1)%nat) (B i)) /\
    knot_removal p U P u tol 1 = Ok Q /\
    (~ within4 (A mid) (B mid) tol -> Q = firstn n P) /\
    (within4 (A mid) (B mid) tol -> length Q = n /\ forall i, (i < n)%nat -> nth i Q (V4 0 0 0 0) = stitched A mid (A mid) B i).
Proof. exact tolerance_odd. Qed.
Print Assumptions C236_tolerance_partial.

Example C236_case : valid_knots 3 2 bump_knots /\ length bump = 4%nat /\ knot bump_knots 2 < qc 1 2 /\ qc 1 2 < knot bump_knots (3 + 1) /\ separated bump_knots (qc 1 2) /\ multiplicity bump_knots (qc 1 2) = 1%nat.
Proof. exact bump_case. Qed.
