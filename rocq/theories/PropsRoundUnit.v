(** The unit vector as computed: property C252. *)
From Coq Require Import List ZArith QArith Qcanon.
From Verif Require Import Base ModelVec ModelRoundUnit SpecRoundKd SpecRoundCell SpecRoundLength SpecRoundUnit ProofRoundUnit WitnessRoundLength WitnessRoundUnit.
Open Scope Qc_scope.

(** C252, in full: unit of a finite vector longer than 1 has length 1 in single precision
    and the direction of the vector. False: a long vector becomes 0. *)
Theorem C252_long_vector_refuted :
  exists v, double_point v /\ longer_than_one v /\ forall root, funit full_never round_single root v = Some (V3 0 0 0).
Proof. exact long_unit. Qed.
Print Assumptions C252_long_vector_refuted.

(** true when the square of the length is at most 2^126 *)
Theorem C252_unit_partial :
  forall fl, in_all_doubles fl -> forall root, sqrtf_spec root -> forall v, double_point v -> moderate_vector v -> longer_than_one v ->
  exists p, funit fl round_single root v = Some p /\ unit_in_singles p /\ same_direction v p.
Proof. exact funit_ok. Qed.
Print Assumptions C252_unit_partial.

Example C252_case : double_point (V3 1 1 0) /\ moderate_vector (V3 1 1 0) /\ longer_than_one (V3 1 1 0). Proof. exact unit_case. Qed.
Example C252_root : sqrtf_spec some_root. Proof. exact some_root_ok. Qed.
