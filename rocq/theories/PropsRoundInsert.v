(** Rounding errors of knot insertion (C237). *)
From Coq Require Import List ZArith QArith Qcanon Permutation.
From Verif Require Import Base ModelVec ModelAabb ModelNurbs ModelRound ModelRoundInsert.
From Verif Require Import SpecAabb SpecNurbs SpecCurve SpecRound SpecRoundInsert.
From Verif Require Import ProofRoundInsertTop WitnessNurbs WitnessRound WitnessRoundInsert.
Import ListNotations.
Open Scope Qc_scope.

(** C237: computed with rounding, the control points after inserting a knot r
    times differ from the exact ones by at most ((1-u)^-8r - 1) times the
    largest coordinate, the weights by the same factor of the largest weight;
    knots and interval are exact, and no division by zero happens. *)
Theorem C237_insert_rounding :
  forall eps fl c n t r B W c', rounds eps fl -> good_curve c n -> knot (nc_knots c) (nc_degree c) <= t -> t < knot (nc_knots c) (n + 1) ->
  clear_of eps (nc_knots c) t -> (r + multiplicity (nc_knots c) t <= nc_degree c)%nat -> coords_up_to B (nc_cps c) -> weights_up_to W (nc_cps c) ->
  insert_knot c t r = Ok c' ->
  match finsert_knot fl c t r with
  | Ok d => same_but_points c' d /\ points_differ eps (8 * r) B W (nc_cps c') (nc_cps d)
  | Throw e => e = ERuntime
  | UB => False
  end.
Proof. exact insert_round. Qed.
Print Assumptions C237_insert_rounding.

(** In doubles, fused or not, with unit weights: no point of the curve moves by
    more than 2^-44 of the largest coordinate, and evaluating the result in
    doubles gives the point of the old curve within 2^-43 of it. *)
Theorem C237_curve_kept_double :
  forall fl c n t r B d, in_doubles fl -> good_curve c n -> knot (nc_knots c) (nc_degree c) <= t -> t < knot (nc_knots c) (n + 1) ->
  clear_of (p2 (-53)) (nc_knots c) t -> (r + multiplicity (nc_knots c) t <= nc_degree c)%nat -> unit_weights (nc_cps c) -> coords_up_to B (nc_cps c) ->
  finsert_knot fl c t r = Ok d ->
  good_curve d (n + r) /\ positive_weights (nc_cps d) /\ Permutation (nc_knots d) (repeat t r ++ nc_knots c) /\
  forall u, in_curve c n u -> in_curve d (n + r) u /\ exists p q, evaluate c u = Ok p /\ evaluate d u = Ok q /\ point_within (p2 (-44) * B) p q /\
    match fevaluate fl d u with
    | Ok q' => point_within (p2 (-43) * B) p q'
    | Throw e => e = ERuntime
    | UB => False
    end.
Proof. exact insert_double. Qed.
Print Assumptions C237_curve_kept_double.

(** without rounding this is the insertion the other theorems are about *)
Theorem C237_no_rounding : forall c t r, finsert_knot (fun _ => Some) c t r = insert_knot c t r.
Proof. exact exact_insert. Qed.
Print Assumptions C237_no_rounding.

Example C237_instance : good_curve demo 3 /\ knot (nc_knots demo) (nc_degree demo) <= third /\ third < knot (nc_knots demo) (3 + 1) /\
  clear_of (p2 (-53)) (nc_knots demo) third /\ (2 + multiplicity (nc_knots demo) third <= nc_degree demo)%nat /\ unit_weights (nc_cps demo) /\
  coords_up_to (qc 4 1) (nc_cps demo) /\ weights_up_to 1 (nc_cps demo).
Proof. exact insert_hyps. Qed.
Example C237_not_exact : exists d e, finsert_knot never_fused demo third 2 = Ok d /\ insert_knot demo third 2 = Ok e /\
  wx (nth 2 (nc_cps d) v4zero) <> wx (nth 2 (nc_cps e) v4zero).
Proof. exact insert_rounded. Qed.
Example C237_fused : exists d, finsert_knot always_fused demo third 2 = Ok d.
Proof. exact insert_fused. Qed.
