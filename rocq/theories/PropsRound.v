(** Rounding errors (C232-C235). *)
From Coq Require Import List ZArith QArith Qcanon.
From Verif Require Import Base ModelVec ModelAabb ModelNurbs ModelSurface ModelRound.
From Verif Require Import SpecAabb SpecNurbs SpecCurve SpecSurface SpecRound.
From Verif Require Import ProofRoundTop ProofRoundDouble ProofRoundAll WitnessNurbs WitnessSurface WitnessRound.
Import ListNotations.
Open Scope Qc_scope.

(** C232: computed with rounding, basis functions are never negative, each has a
    relative error of at most 6p roundings, their sum is one up to the same
    factor, and no division by zero happens. A run can only end by leaving the
    range of the numbers. *)
Theorem C232_basis_rounding :
  forall eps fl n p U x s, rounds eps fl -> valid_knots n p U -> in_domain n p U x -> (p <= 8)%nat -> find_span n p x U = Ok s ->
  match fbasis_funs fl s x p U zeros with
  | Ok N => (forall r, (r <= p)%nat -> 0 <= nth r N 0 /\ same_up_to eps (6 * p) (basis_at U n p x (s - p + r)) (nth r N 0)) /\
            same_up_to eps (6 * p) 1 (qsum (fun r => nth r N 0) (S p))
  | Throw e => e = ERuntime
  | UB => False
  end.
Proof. exact basis_top. Qed.
Print Assumptions C232_basis_rounding.

Example C232_instance : valid_knots 3 2 (nc_knots demo) /\ in_domain 3 2 (nc_knots demo) third /\
  exists s N, find_span 3 2 third (nc_knots demo) = Ok s /\ fbasis_funs never_fused s third 2 (nc_knots demo) zeros = Ok N /\
    map this (firstn 3 N) = [4003199668773775 # 9007199254740992; 1 # 2; 2001599834386887 # 36028797018963968]%Q.
Proof. destruct demo_hyps as ((_ & V & _) & D & _). split; [exact V|]. split; [exact D|exact demo_basis]. Qed.

(** C233: the point evaluate computes with rounding differs from the point of the
    curve by at most ((1-u)^-(14p+6) - 1) times the largest coordinate of the
    control points; it never divides by zero. *)
Theorem C233_curve_rounding :
  forall eps fl c n B x, rounds eps fl -> good_curve c n -> in_curve c n x -> positive_weights (nc_cps c) -> coords_up_to B (nc_cps c) ->
  match fevaluate fl c x with
  | Ok p => point_differs_at_most eps (14 * nc_degree c + 6) B (rational_point (nc_knots c) n (nc_degree c) (nc_cps c) x) p
  | Throw e => e = ERuntime
  | UB => False
  end.
Proof. exact curve_top. Qed.
Print Assumptions C233_curve_rounding.

(** In doubles, products that are added at once fused or not: within 2^-45 of the largest coordinate, for every degree the
    library can evaluate. *)
Theorem C233_curve_double :
  forall fl c n B x, in_doubles fl -> good_curve c n -> in_curve c n x -> positive_weights (nc_cps c) -> coords_up_to B (nc_cps c) ->
  match fevaluate fl c x with
  | Ok p => point_within (p2 (-45) * B) (rational_point (nc_knots c) n (nc_degree c) (nc_cps c) x) p
  | Throw e => e = ERuntime
  | UB => False
  end.
Proof. exact curve_double. Qed.
Print Assumptions C233_curve_double.

(** So a computed point leaves a box around the control points by no more. *)
Theorem C233_box_double :
  forall fl c n b B x p, in_doubles fl -> good_curve c n -> in_curve c n x -> positive_weights (nc_cps c) ->
  (forall q, In q (nc_cps c) -> inside b (xyz q)) -> coords_up_to B (nc_cps c) ->
  fevaluate fl c x = Ok p -> inside (grown b (p2 (-45) * B)) p.
Proof. exact curve_box. Qed.
Print Assumptions C233_box_double.

Example C233_instance : good_curve demo 3 /\ in_curve demo 3 third /\ positive_weights (nc_cps demo) /\ coords_up_to (qc 4 1) (nc_cps demo) /\
  (forall q, In q (nc_cps demo) -> inside (nc_aabb demo) (xyz q)).
Proof. exact demo_hyps. Qed.
Example C233_not_exact : exists p e, fevaluate never_fused demo third = Ok p /\ evaluate demo third = Ok e /\ vx p = vx e /\
  vy p = qc 4753799606668857 4503599627370496 /\ vy p <> vy e.
Proof. exact demo_rounded. Qed.

(** C234: the same for surfaces, 14(p+q)+9 roundings, within 2^-44 in doubles. *)
Theorem C234_surface_rounding :
  forall eps fl s n m B u v, rounds eps fl -> good_surf s n m -> in_surf s n m u v -> positive_surf s -> net_up_to B (ns_cps s) ->
  match fns_evaluate fl s u v with
  | Ok p => point_differs_at_most eps (14 * (ns_du s + ns_dv s) + 9) B (surf_point s n m u v) p
  | Throw e => e = ERuntime
  | UB => False
  end.
Proof. exact surface_top. Qed.
Print Assumptions C234_surface_rounding.

Theorem C234_surface_double :
  forall fl s n m B u v, in_doubles fl -> good_surf s n m -> in_surf s n m u v -> positive_surf s -> net_up_to B (ns_cps s) ->
  match fns_evaluate fl s u v with
  | Ok p => point_within (p2 (-44) * B) (surf_point s n m u v) p
  | Throw e => e = ERuntime
  | UB => False
  end.
Proof. exact surface_double. Qed.
Print Assumptions C234_surface_double.

Example C234_instance : good_surf demo_rat 3 2 /\ in_surf demo_rat 3 2 third third /\ positive_surf demo_rat /\ net_up_to (qc 6 1) (ns_cps demo_rat).
Proof. exact demo_surf_hyps. Qed.
Example C234_value : exists p, fns_evaluate never_fused demo_rat third third = Ok p /\ this (vx p) = 788604998041669 # 1125899906842624.
Proof. exact demo_surf_rounded. Qed.

(** C235: the rounding used above is one the theorems apply to, it delivers a
    number for every result in the normal range, and without rounding the
    computations are those the other theorems are about. *)
Theorem C235_double_rounds : forall fl, in_doubles fl -> rounds (p2 (-53)) fl.
Proof. exact in_doubles_rounds. Qed.
Print Assumptions C235_double_rounds.

Theorem C235_double_total : forall x, p2 (-1022) <= Qcabs x -> Qcabs x <= p2 1023 -> round_double x <> None.
Proof. exact double_total. Qed.
Print Assumptions C235_double_total.

Theorem C235_no_rounding :
  (forall c x, fevaluate (fun _ => Some) c x = evaluate c x) /\ (forall s u v, fns_evaluate (fun _ => Some) s u v = ns_evaluate s u v) /\
  (forall i u p U N, fbasis_funs (fun _ => Some) i u p U N = basis_funs i u p U N).
Proof. exact (conj exact_evaluate (conj exact_surface exact_basis)). Qed.
Print Assumptions C235_no_rounding.

Example C235_in_doubles : in_doubles never_fused /\ in_doubles always_fused.
Proof. exact doubles_hold. Qed.
Example C235_fused_differs : exists N M, fbasis_funs never_fused 2 elevenths 2 (nc_knots demo) zeros = Ok N /\
  fbasis_funs always_fused 2 elevenths 2 (nc_knots demo) zeros = Ok M /\ nth 1 N 0 <> nth 1 M 0.
Proof. exact fused_differs. Qed.
Example C235_instance : round_double (qc 1 3) = Some third.
Proof. exact third_rounds. Qed.
