(** The length of a vector as computed: property C251. *)
From Coq Require Import List ZArith QArith Qcanon.
From Verif Require Import Base ModelVec ModelRoundLength SpecRoundKd SpecRoundCell SpecRoundLength ProofRoundLength WitnessRoundLength.
Open Scope Qc_scope.

(** C251, in full: length of any finite vector is its length in single precision. False:
    the square of the length has to be a float as well. *)
Theorem C251_long_vector_refuted :
  exists v, double_point v /\ forall root, flength full_never round_single root v = None.
Proof. exact long_vector. Qed.
Print Assumptions C251_long_vector_refuted.

Theorem C251_short_vector_refuted :
  exists v, double_point v /\ v <> V3 0 0 0 /\ forall root, sqrtf_spec root -> flength full_never round_single root v = Some 0.
Proof. exact short_vector. Qed.
Print Assumptions C251_short_vector_refuted.

(** true when the square of the length is between 2^-125 and 2^126 *)
Theorem C251_length_partial :
  forall fl, in_all_doubles fl -> forall root, sqrtf_spec root -> forall v, double_point v -> moderate_vector v ->
  exists l, flength fl round_single root v = Some l /\ length_in_singles v l.
Proof. exact flength_ok. Qed.
Print Assumptions C251_length_partial.

Example C251_case : double_point (V3 1 1 0) /\ moderate_vector (V3 1 1 0). Proof. exact unit_diagonal. Qed.
Example C251_root : sqrtf_spec some_root. Proof. exact some_root_ok. Qed.
