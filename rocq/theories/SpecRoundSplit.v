(** Specification vocabulary for rounding errors of splitting (C238). *)
From Coq Require Import List ZArith QArith Qcanon Bool.
From Verif Require Import Base ModelVec ModelAabb ModelNurbs ModelRound SpecAabb SpecNurbs SpecCurve SpecRound.
Open Scope Qc_scope.

(** [part] is a curve of the same degree with domain [lo, hi] that runs through the
    points of [c] there up to 2^-44 B, and up to 2^-43 B when it is evaluated with
    the rounding [fl]; its box contains them up to 2^-44 B *)
Definition traces_nearly (fl : nat -> Qc -> option Qc) (B : Qc) (part c : ncurve) (lo hi : Qc) : Prop :=
  exists m, good_curve part m /\ nc_degree part = nc_degree c /\ positive_weights (nc_cps part) /\ interval_current part /\
    knot (nc_knots part) (nc_degree c) = lo /\ knot (nc_knots part) (m + 1) = hi /\
    forall u, lo <= u -> u <= hi ->
      exists p q, evaluate c u = Ok p /\ evaluate part u = Ok q /\
        point_within (p2 (-44) * B) p q /\ inside (grown (nc_aabb part) (p2 (-44) * B)) p /\
        match fevaluate fl part u with
        | Ok q' => point_within (p2 (-43) * B) p q'
        | Throw e => e = ERuntime
        | UB => False
        end.
