(** Patches made from coefficients: property C243. *)
From Coq Require Import List ZArith QArith Qcanon Lia.
From Verif Require Import Base ModelVec ModelNurbs ModelSurface ModelNumeric ModelMonomial ModelMonomialMake SpecNurbs SpecSurface SpecMonomial
  ProofMonomialMake WitnessMonomial.
Import ListNotations.
Open Scope Qc_scope.

Theorem C243_coefficients_convert :
  forall co n m, (n <= 30)%nat -> (m <= 30)%nat -> shape co (S n) (S m) ->
  exists o g, mo_sized (Z.of_nat (S n)) (Z.of_nat (S m)) co = Ok o /\ mo_set co = Ok o /\ mo_to_bezier (mo_copy o) ns_default = Ok g /\
    ns_du g = n /\ ns_dv g = m /\ shape (ns_cps g) (S n) (S m) /\
    (forall u v, bezier_patch (fun i j => euclid (cp (ns_cps g) i j)) (S n) (S m) u v = poly2 co (S n) (S m) u v) /\
    ((n <= 8)%nat -> (m <= 8)%nat -> forall u v, 0 <= u -> u <= 1 -> 0 <= v -> v <= 1 -> ns_evaluate g u v = Ok (poly2 co (S n) (S m) u v)).
Proof. exact make_top. Qed.
Print Assumptions C243_coefficients_convert.

Theorem C243_blank_is_zero :
  forall n m, (n <= 30)%nat -> (m <= 30)%nat ->
  exists o g, mo_blank (Z.of_nat (S n)) (Z.of_nat (S m)) = Ok o /\ mo_to_bezier o ns_default = Ok g /\ ns_du g = n /\ ns_dv g = m /\
    (forall u v, bezier_patch (fun i j => euclid (cp (ns_cps g) i j)) (S n) (S m) u v = V3 0 0 0) /\
    ((n <= 8)%nat -> (m <= 8)%nat -> forall u v, 0 <= u -> u <= 1 -> 0 <= v -> v <= 1 -> ns_evaluate g u v = Ok (V3 0 0 0)).
Proof. exact blank_top. Qed.
Print Assumptions C243_blank_is_zero.

(** sizes that are not those of the coefficients are taken, and found out only
    when the patch is converted *)
Theorem C243_wrong_sizes :
  forall co n m a b, (n <= 30)%nat -> (m <= 30)%nat -> shape co (S a) b -> (S a <> S n \/ b <> S m) ->
  exists o, mo_sized (Z.of_nat (S n)) (Z.of_nat (S m)) co = Ok o /\ forall surf, mo_to_bezier o surf = Throw ERuntime.
Proof. exact wrong_sizes_top. Qed.
Print Assumptions C243_wrong_sizes.

Theorem C243_negative_sizes :
  forall n m co, (n < 0 \/ m < 0)%Z -> (- 2 ^ 31 < n <= 31)%Z -> (- 2 ^ 31 < m <= 31)%Z ->
  mo_blank n m = Throw ELength /\ mo_sized n m co = Throw ELength.
Proof. exact negative_top. Qed.
Print Assumptions C243_negative_sizes.

Example C243_case : shape tens 3 2 /\ (3 <> 2 \/ 2 <> 2)%nat.
Proof. split; [exact tens_shape|]. left. discriminate. Qed.
