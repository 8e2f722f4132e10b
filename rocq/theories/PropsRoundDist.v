(** distanceSq in double arithmetic: property C253. *)
From Coq Require Import List ZArith QArith Qcanon.
From Verif Require Import Base ModelVec ModelRoundKd SpecRoundKd SpecRoundCell SpecRoundDist SpecRoundSegm ProofRoundDist WitnessRoundDist.
Open Scope Qc_scope.

(** C253: distanceSq is the same in both directions, whatever overflows *)
Theorem C253_symmetric_partial :
  forall fl, in_all_doubles fl -> forall a b, fdist_sq3 fl a b = fdist_sq3 fl b a.
Proof. exact fdist_sym. Qed.
Print Assumptions C253_symmetric_partial.

Theorem C253_same_point_partial :
  forall fl, in_all_doubles fl -> forall a, fdist_sq3 fl a a = Some 0.
Proof. exact fdist_self. Qed.
Print Assumptions C253_same_point_partial.

(** it does not get smaller when a point moves away in every coordinate *)
Theorem C253_moving_away_partial :
  forall fl, in_all_doubles fl -> forall a b c, in_between a b c -> ext_le (fdist_sq3 fl a b) (fdist_sq3 fl a c).
Proof. exact fdist_away. Qed.
Print Assumptions C253_moving_away_partial.

(** 0 for equal points only: false *)
Theorem C253_different_points_refuted :
  exists a b, double_point a /\ double_point b /\ a <> b /\ fdist_sq3 full_never a b = Some 0.
Proof. exact close_pair. Qed.
Print Assumptions C253_different_points_refuted.

(** true of points 2^-500 or more apart in some coordinate *)
Theorem C253_different_points_partial :
  forall fl, in_all_doubles fl -> forall a b, distinct_enough b a -> fdist_sq3 fl a b <> Some 0.
Proof. exact fdist_positive_top. Qed.
Print Assumptions C253_different_points_partial.

Example C253_box : in_between (V3 0 0 0) (V3 1 (- (1)) 0) (V3 (1 + 1) (- (1)) 0). Proof. exact box_case. Qed.
Example C253_apart : distinct_enough (V3 1 0 0) (V3 0 0 0). Proof. exact apart_case. Qed.
