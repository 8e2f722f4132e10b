(** The periodicity test of curves: property C224. *)
From Coq Require Import List ZArith Lia.
From Verif Require Import Base ModelSerialization SpecSerialization SpecIsPeriodic ProofSerialization ProofIsPeriodic.
Import ListNotations.
Open Scope Z_scope.

(** C224 *)
Theorem C224_periodic_test : forall c, usable c -> exists b, is_periodic c = Ok b /\ (b = true <-> repeats_start c).
Proof. exact periodic_exact. Qed.
Print Assumptions C224_periodic_test.

(** with fewer control points than the degree it reads before the first one *)
Theorem C224_short_curve_undefined : forall c, Z.of_nat (length (c_cps c)) < c_degree c -> is_periodic c = UB.
Proof. exact periodic_short. Qed.
Print Assumptions C224_short_curve_undefined.

(** the two zeros are the same number, NaN is not the same number as itself *)
Definition zero_nan (d : Z) : curve := Curve 1 false [V4b 0 0 0 0; V4b 1 0 0 0; V4b d 0 0 0] [0].
Example C224_case : usable (zero_nan (2 ^ 63)) /\ is_periodic (zero_nan (2 ^ 63)) = Ok true /\ is_periodic (zero_nan 1) = Ok false /\
  is_periodic (Curve 1 false [V4b 0x7FF8000000000000 0 0 0] [0]) = Ok false /\ Z.of_nat (length (c_cps (Curve 2 false [V4b 0 0 0 0] [0]))) < c_degree (Curve 2 false [V4b 0 0 0 0] [0]).
Proof.
  split; [|vm_compute; auto]. unfold usable, zero_nan, is_vec4, is_dbl. cbn. repeat split; try lia; try discriminate; repeat constructor; cbn; lia.
Qed.
