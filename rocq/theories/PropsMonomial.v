(** Monomial patches: properties C61-C63 and C106-C110. *)
From Coq Require Import List ZArith QArith Qcanon Lia.
From Verif Require Import Base ModelVec ModelNurbs ModelSurface ModelBinom ModelNumeric ModelMonomial SpecNurbs SpecSurface SpecMonomial
  ProofMonomialTop ProofMonomialDiff WitnessMonomial.
Import ListNotations.
Open Scope Qc_scope.

(** C61 *)
Theorem C61_round_trip :
  forall s n m, (n <= 30)%nat -> (m <= 30)%nat -> shape (ns_cps s) (S n) (S m) -> ns_su s = S n -> ns_sv s = S m ->
  unit_surf s -> exists o s', mo_of_surface s = Ok o /\ mo_to_bezier o ns_default = Ok s' /\ ns_cps s' = ns_cps s.
Proof. exact unit_round_trip_top. Qed.
Print Assumptions C61_round_trip.

Theorem C61_round_trip_weights :
  forall s n m, (n <= 30)%nat -> (m <= 30)%nat -> shape (ns_cps s) (S n) (S m) -> ns_su s = S n -> ns_sv s = S m ->
  (forall i j, (i <= n)%nat -> (j <= m)%nat -> ww (cp (ns_cps s) i j) <> 0) ->
  exists o s', mo_of_surface s = Ok o /\ mo_to_bezier o ns_default = Ok s' /\
    ns_du s' = n /\ ns_dv s' = m /\ ns_su s' = S n /\ ns_sv s' = S m /\
    ns_ku s' = repeat 0 (S n) ++ repeat 1 (S n) /\ ns_kv s' = repeat 0 (S m) ++ repeat 1 (S m) /\ intervals_current s' /\
    shape (ns_cps s') (S n) (S m) /\ forall i j, (i <= n)%nat -> (j <= m)%nat -> cp (ns_cps s') i j = v4of3 (euclid (cp (ns_cps s) i j)).
Proof. exact round_trip_top. Qed.
Print Assumptions C61_round_trip_weights.

Theorem C61_degree_limit : forall s, (31 < ns_su s)%nat -> mo_of_surface s = UB.
Proof. exact degree_limit. Qed.
Print Assumptions C61_degree_limit.

Example C61_case : shape (ns_cps patch_unit) 3 2 /\ unit_surf patch_unit /\ ns_su patch_unit = 3%nat /\ ns_sv patch_unit = 2%nat.
Proof. split; [exact patch_unit_shape|]. split; [apply patch_unit_good|]. split; reflexivity. Qed.

(** C62 *)
Theorem C62_monomial_is_bezier :
  forall s n m, (n <= 30)%nat -> (m <= 30)%nat -> shape (ns_cps s) (S n) (S m) -> ns_su s = S n -> ns_sv s = S m ->
  (forall i j, (i <= n)%nat -> (j <= m)%nat -> ww (cp (ns_cps s) i j) <> 0) ->
  exists o, mo_of_surface s = Ok o /\ shape (mo_coeffs o) (S n) (S m) /\
    forall u v, poly2 (mo_coeffs o) (S n) (S m) u v = bezier_patch (fun i j => euclid (cp (ns_cps s) i j)) (S n) (S m) u v.
Proof. exact monomial_top. Qed.
Print Assumptions C62_monomial_is_bezier.

Theorem C62_monomial_evaluates_like_surface :
  forall s n m u v, good_surf s n m -> unit_surf s -> ns_du s = n -> ns_dv s = m ->
  ns_ku s = repeat 0 (S n) ++ repeat 1 (S n) -> ns_kv s = repeat 0 (S m) ++ repeat 1 (S m) ->
  0 <= u -> u <= 1 -> 0 <= v -> v <= 1 ->
  exists o, mo_of_surface s = Ok o /\ ns_evaluate s u v = Ok (poly2 (mo_coeffs o) (S n) (S m) u v).
Proof. exact bezier_evaluate_top. Qed.
Print Assumptions C62_monomial_evaluates_like_surface.

Example C62_case : good_surf patch_unit 2 1 /\ unit_surf patch_unit /\ ns_du patch_unit = 2%nat /\ ns_dv patch_unit = 1%nat /\
  ns_ku patch_unit = repeat 0 3 ++ repeat 1 3 /\ ns_kv patch_unit = repeat 0 2 ++ repeat 1 2.
Proof. destruct patch_unit_good as (A & B & C & D). repeat (split; [assumption|]). split; reflexivity. Qed.

(** C63 *)
Theorem C63_partial_derivative_u :
  forall T n m, (0 < n)%nat -> shape T n m ->
  exists D, partial_derivative T true [] = Ok D /\ shape D (n - 1) m /\
    forall u v, has_derivative3 (fun t => poly2 T n m t v) u (poly2 D (n - 1) m u v).
Proof. exact partial_u_top. Qed.
Print Assumptions C63_partial_derivative_u.

Theorem C63_partial_derivative_v :
  forall T n m, (0 < n)%nat -> (0 < m)%nat -> shape T n m ->
  exists D, partial_derivative T false [] = Ok D /\ shape D n (m - 1) /\
    forall u v, has_derivative3 (fun t => poly2 T n m u t) v (poly2 D n (m - 1) u v).
Proof. exact partial_v_top. Qed.
Print Assumptions C63_partial_derivative_v.

Theorem C63_cross_product :
  forall A B n1 m1 n2 m2, (0 < n1)%nat -> (0 < m1)%nat -> (0 < n2)%nat -> (0 < m2)%nat -> shape A n1 m1 -> shape B n2 m2 ->
  exists C, cross_tensor A B [] = Ok C /\ shape C (n1 + n2 - 1) (m1 + m2 - 1) /\
    forall u v, poly2 C (n1 + n2 - 1) (m1 + m2 - 1) u v = v3cross (poly2 A n1 m1 u v) (poly2 B n2 m2 u v).
Proof. exact cross_top. Qed.
Print Assumptions C63_cross_product.

Example C63_case : shape tens 3 2. Proof. exact tens_shape. Qed.

(** C106 *)
Theorem C106_normal_patch :
  forall o n m, (2 <= n <= 16)%nat -> (2 <= m <= 16)%nat -> shape (mo_coeffs o) n m ->
  exists o' du dv, mo_normal o = Ok o' /\ mo_n o' = (2 * n - 2)%nat /\ mo_m o' = (2 * m - 2)%nat /\ shape (mo_coeffs o') (2 * n - 2) (2 * m - 2) /\
    (forall u v, has_derivative3 (fun t => poly2 (mo_coeffs o) n m t v) u (du u v)) /\
    (forall u v, has_derivative3 (fun t => poly2 (mo_coeffs o) n m u t) v (dv u v)) /\
    forall u v, poly2 (mo_coeffs o') (2 * n - 2) (2 * m - 2) u v = v3cross (du u v) (dv u v).
Proof. exact normal_top. Qed.
Print Assumptions C106_normal_patch.

Theorem C106_partial_patches :
  forall o n m, (2 <= n <= 31)%nat -> (2 <= m <= 31)%nat -> shape (mo_coeffs o) n m ->
  (exists o', mo_partial o true = Ok o' /\ mo_n o' = (n - 1)%nat /\ mo_m o' = m /\ shape (mo_coeffs o') (n - 1) m /\
    forall u v, has_derivative3 (fun t => poly2 (mo_coeffs o) n m t v) u (poly2 (mo_coeffs o') (n - 1) m u v)) /\
  (exists o', mo_partial o false = Ok o' /\ mo_n o' = n /\ mo_m o' = (m - 1)%nat /\ shape (mo_coeffs o') n (m - 1) /\
    forall u v, has_derivative3 (fun t => poly2 (mo_coeffs o) n m u t) v (poly2 (mo_coeffs o') n (m - 1) u v)).
Proof. exact partial_set_top. Qed.
Print Assumptions C106_partial_patches.

Example C106_case : exists o, mo_set tens = Ok o /\ mo_n o = 3%nat /\ mo_m o = 2%nat /\ shape (mo_coeffs o) 3 2.
Proof. exact tens_mono. Qed.

(** C107: the patch with one row is an object of the class, its derivative is not *)
Theorem C107_constant_patch_derivative_refuted :
  exists o, mo_set [[V3 1 0 0; V3 0 1 0]] = Ok o /\ mo_partial o true = UB /\ mo_normal o = UB.
Proof. destruct row_mono as (o & E & S). exists o. split; [exact E|]. exact (partial_const_top o 2 S). Qed.
Print Assumptions C107_constant_patch_derivative_refuted.

Theorem C107_constant_patch_derivative :
  forall o m, shape (mo_coeffs o) 1 m -> mo_partial o true = UB /\ mo_normal o = (if Nat.eqb m 0 then Throw ELength else UB).
Proof. exact partial_const_top. Qed.
Print Assumptions C107_constant_patch_derivative.

(** C108 *)
Theorem C108_assigned_patch_converts_refuted :
  forall o n m, mo_n o = S n -> shape (mo_coeffs o) (S n) m -> forall surf, mo_to_bezier (mo_assign mo_default o) surf = Throw ERuntime.
Proof. exact assign_top. Qed.
Print Assumptions C108_assigned_patch_converts_refuted.

Example C108_case : exists o, mo_set tens = Ok o /\ mo_n o = 3%nat /\ shape (mo_coeffs o) 3 2.
Proof. destruct tens_mono as (o & A & B & _ & C). exists o. auto. Qed.

(** C109 *)
Theorem C109_target_overwritten_refuted :
  exists s t o s', good_surf s 2 1 /\ unit_surf s /\ mo_of_surface s = Ok o /\ mo_to_bezier o t = Ok s' /\ good_surf t 2 1 /\ ~ unit_surf s'.
Proof. exact stale_target. Qed.
Print Assumptions C109_target_overwritten_refuted.

(** C110 *)
Theorem C110_rational_round_trip_refuted :
  exists s o s' a b, good_surf s 2 1 /\ positive_surf s /\ mo_of_surface s = Ok o /\ mo_to_bezier o ns_default = Ok s' /\
  ns_evaluate s (qc 1 2) (qc 1 2) = Ok a /\ ns_evaluate s' (qc 1 2) (qc 1 2) = Ok b /\ a <> b.
Proof. exact rational_trip. Qed.
Print Assumptions C110_rational_round_trip_refuted.
