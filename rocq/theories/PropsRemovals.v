(** Taking a knot out several times: property C239. *)
From Coq Require Import List ZArith QArith Qcanon Bool.
From Verif Require Import Base ModelVec ModelNurbs ModelRefine SpecNurbs SpecCurve SpecRefine SpecRemovals ProofRemovals WitnessRemovals.
Import ListNotations.
Open Scope Qc_scope.

(** C239: a knot put in twice and taken out twice leaves another last point *)
Theorem C239_removals_refuted :
  exists cps c c' t Q, nc_make cps 2 false = Ok c /\ good_curve c 2 /\ unit_weights cps /\ insert_knot c t 2 = Ok c' /\
    knot_removal 2 (nc_knots c') (nc_cps c') t (qc 1 1000) 2 = Ok Q /\ length Q = 3%nat /\
    nth 2 (nc_cps c) (V4 0 0 0 0) = V4 (qc 2 1) 0 0 1 /\ nth 2 Q (V4 0 0 0 0) = V4 1 1 0 1.
Proof. exact twice_refuted. Qed.
Print Assumptions C239_removals_refuted.

(** What is returned instead, for no more removals than there are knots. Every round
    starts from the points given, not from those the round before left. [A t] are the
    points round [t] finds from the left and [B t] those from the right; where they
    meet within the tolerance, they replace the points of [news t]. In the first
    round they may meet in one point, and then only the sign of the tolerance counts. *)
Theorem C239_removals_exact :
  forall n p U P u tol num, valid_knots n p U -> length P = S n -> knot U p < u -> u < knot U (n + 1) -> separated U u ->
  (1 <= multiplicity U u <= p)%nat -> (num <= multiplicity U u)%nat ->
  exists r A B news, (p < r <= n)%nat /\ knot U r <= u /\ u < knot U (r + 1) /\
    news 0%nat = P /\ knot_removal p U P u tol num = Ok (firstn (S n - num) (news num)) /\
    forall t, (t < num)%nat ->
    let first := (r - p - t)%nat in
    let last := (r - multiplicity U u + t)%nat in
    let gap := (last - first - t)%nat in
    (forall i, (i < first)%nat -> A t i = nth i P (V4 0 0 0 0)) /\
    (forall i, (first <= i <= first + gap / 2)%nat ->
       nth i P (V4 0 0 0 0) = between (knot U i) (knot U (i + p + 1 + t)) u (A t (i - 1)%nat) (A t i)) /\
    (forall i, (last < i)%nat -> B t i = nth i P (V4 0 0 0 0)) /\
    (forall i, (last - gap / 2 <= i <= last)%nat ->
       nth i P (V4 0 0 0 0) = between (knot U (i - t)) (knot U (i + p + 1)) u (B t i) (B t (i + 1)%nat)) /\
    length (news (S t)) = S n /\
    let met := if (Nat.eqb t 0 && Nat.even gap)%bool then 0 <= tol else within4 (A t (first + gap / 2)%nat) (B t (last - gap / 2)%nat) tol in
    (met -> forall i, (i <= n)%nat -> nth i (news (S t)) (V4 0 0 0 0) =
       if (Nat.leb first i && Nat.ltb (2 * (i - first)) gap)%bool then A t i
       else if (Nat.leb i last && Nat.ltb (2 * (last - i)) gap)%bool then B t i
       else nth i (news t) (V4 0 0 0 0)) /\
    (~ met -> news (S t) = news t).
Proof. exact removals_exact. Qed.
Print Assumptions C239_removals_exact.

(** C239: one removal too many at the first inner knot reads outside the points *)
Theorem C239_too_many :
  forall n p U P u tol num, valid_knots n p U -> length P = S n -> knot U p < u -> u < knot U (n + 1) -> separated U u ->
  (1 <= multiplicity U u <= p)%nat -> knot U (p + 1) = u -> (multiplicity U u < num)%nat -> knot_removal p U P u tol num = UB.
Proof. exact removals_ub. Qed.
Print Assumptions C239_too_many.

Example C239_case : valid_knots 4 2 twice_knots /\ length twice = 5%nat /\ knot twice_knots 2 < qc 1 2 /\ qc 1 2 < knot twice_knots (4 + 1) /\
  separated twice_knots (qc 1 2) /\ multiplicity twice_knots (qc 1 2) = 2%nat /\ knot twice_knots (2 + 1) = qc 1 2.
Proof. exact twice_case. Qed.
Example C239_value : knot_removal 2 twice_knots twice (qc 1 2) (qc 10 1) 2 = Ok [V4 0 0 0 1; V4 1 (qc 2 1) 0 1; V4 1 (qc 3 1) 0 1] /\
  knot_removal 2 twice_knots twice (qc 1 2) (qc 10 1) 3 = UB.
Proof. exact twice_removed. Qed.
