(** Numeric helpers: properties C34, C52-C58 and C95-C103. *)
From Coq Require Import List ZArith QArith Qcanon Lia.
From Verif Require Import Base ModelBinom ModelNumeric SpecNurbs SpecNumeric
  ProofIntegrate ProofQuintic ProofMinimize ProofMatrix WitnessNumeric.
Import ListNotations.
Open Scope Qc_scope.

(** C34 *)
Theorem C34_binomial_table :
  forall n k, (n <= 30)%nat -> (k <= 30)%nat ->
  exists c, binomial_coefficient (Z.of_nat n) (Z.of_nat k) = Ok c /\ subset_count n k c.
Proof. exact binomial_top. Qed.
Print Assumptions C34_binomial_table.

Theorem C34_binomial_outside_table :
  forall n k, (n < 0 \/ 30 < n \/ k < 0 \/ 30 < k)%Z -> binomial_coefficient n k = UB.
Proof. exact binomial_outside. Qed.
Print Assumptions C34_binomial_outside_table.

Example C34_case : binomial_coefficient 30 15 = Ok 155117520%Z. Proof. vm_compute. reflexivity. Qed.

(** C52 *)
Theorem C52_integrate_exact_on_cubics :
  forall c0 c1 c2 c3 a b tol depth, let q := integrate (cubic c0 c1 c2 c3) a b tol depth in
  q_result q = cubic_integral c0 c1 c2 c3 a b /\ q_error q = 0.
Proof. exact cubic_top. Qed.
Print Assumptions C52_integrate_exact_on_cubics.

(** C53 *)
Theorem C53_integrate_bounded_work :
  forall f t0 t1 tol depth, let q := integrate f t0 t1 tol depth in
  (length (q_calls q) <= 1 + 2 * 2 ^ (depth + 1))%nat /\
  (forall x, In x (q_calls q) -> between t0 t1 x) /\ 0 <= q_error q.
Proof. exact work_top. Qed.
Print Assumptions C53_integrate_bounded_work.

Example C53_case : let q := integrate (fun x => x * x * x * x) 0 1 (qc 1 10000) 2 in
  length (q_calls q) = 9%nat /\ 0 < q_error q /\ q_result q <> qc 1 5.
Proof. exact quad_case. Qed.

(** C95 *)
Theorem C95_integral_between_bounds :
  forall f t0 t1 tol depth lo hi, t0 <= t1 -> (forall x, t0 <= x -> x <= t1 -> lo <= f x /\ f x <= hi) ->
  let r := q_result (integrate f t0 t1 tol depth) in lo * (t1 - t0) <= r /\ r <= hi * (t1 - t0).
Proof. exact bounds_top. Qed.
Print Assumptions C95_integral_between_bounds.

(** C96 *)
Theorem C96_integral_reversed :
  forall f t0 t1 tol depth,
  q_result (integrate f t1 t0 tol depth) = - q_result (integrate f t0 t1 tol depth) /\
  q_error (integrate f t1 t0 tol depth) = q_error (integrate f t0 t1 tol depth).
Proof. exact flip_top. Qed.
Print Assumptions C96_integral_reversed.

(** C97 *)
Theorem C97_estimate_bounds_quintic_error :
  forall cs t0 t1 tol depth, (length cs <= 6)%nat ->
  let q := integrate (poly cs) t0 t1 tol depth in Qcabs (q_result q - poly_integral cs t0 t1) <= q_error q.
Proof. exact quintic_top. Qed.
Print Assumptions C97_estimate_bounds_quintic_error.

(** C98: refuted. The estimate meets the tolerance, the error does not. *)
Theorem C98_estimate_bounds_error_refuted :
  exists cs t0 t1 tol depth, let q := integrate (poly cs) t0 t1 tol depth in
  0 < tol /\ t0 < t1 /\ (2 <= depth)%nat /\ q_error q < tol /\ tol < Qcabs (q_result q - poly_integral cs t0 t1).
Proof. exact estimate_witness. Qed.
Print Assumptions C98_estimate_bounds_error_refuted.

(** C99 *)
Theorem C99_find_t1_constant_speed :
  forall k t0 I guess tol max_iter, lit_1em10 <= Qcabs k -> (1 <= max_iter)%nat ->
  find_t1_newton t0 I (fun _ => k) guess tol max_iter = Some (t0 + I / k).
Proof. exact newton_const. Qed.
Print Assumptions C99_find_t1_constant_speed.
Theorem C99_find_t1_flat_start :
  forall t0 I f guess tol max_iter, (1 <= max_iter)%nat -> Qcabs (f guess) < lit_1em10 ->
  find_t1_newton t0 I f guess tol max_iter = None.
Proof. exact newton_flat. Qed.
Print Assumptions C99_find_t1_flat_start.

Example C99_case : lit_1em10 <= Qcabs (qc 2 1). Proof. vm_compute. discriminate. Qed.

(** C54: [zs] is the sign std::copysign sees on a zero, arbitrary *)
Theorem C54_minimiser_respects_bounds :
  forall f x1 x2 xatol maxiter zs, x1 <= x2 -> 0 <= xatol ->
  exists r calls, minimize_scalar_bounded f x1 x2 xatol maxiter zs = Ok (r, calls) /\
    (x1 <= or_x r /\ or_x r <= x2) /\ (forall x, In x calls -> x1 <= x /\ x <= x2).
Proof. exact minimize_bounds_top. Qed.
Print Assumptions C54_minimiser_respects_bounds.
Theorem C54_minimiser_crossed_bounds :
  forall f x1 x2 xatol maxiter zs, x2 < x1 -> minimize_scalar_bounded f x1 x2 xatol maxiter zs = Throw EInvalidArgument.
Proof. exact minimize_throws. Qed.
Print Assumptions C54_minimiser_crossed_bounds.

Example C54_case : exists r calls, minimize_scalar_bounded parabola 0 (qc 3 1) (qc 1 1) 6 (fun _ => (true, true)) = Ok (r, calls) /\
  or_success r = true /\ (3 < length calls)%nat.
Proof. exact parabola_case. Qed.

(** C55 *)
Theorem C55_minimiser_returns_best_sample :
  forall f x1 x2 xatol maxiter zs, x1 <= x2 -> 0 <= xatol ->
  exists r calls, minimize_scalar_bounded f x1 x2 xatol maxiter zs = Ok (r, calls) /\
    In (or_x r) calls /\ or_fun r = f (or_x r) /\ (forall x, In x calls -> or_fun r <= f x) /\
    or_nfev r = length calls /\ or_nit r = length calls /\ (Z.of_nat (length calls) <= Z.max maxiter 2)%Z /\
    (or_success r = true <-> or_status r = 0%nat) /\ (or_status r = 0%nat \/ or_status r = 1%nat) /\
    (or_status r = 1%nat -> (maxiter <= Z.of_nat (length calls))%Z).
Proof. exact minimize_best_top. Qed.
Print Assumptions C55_minimiser_returns_best_sample.

(** C100: refuted *)
Theorem C100_minimiser_evaluation_limit_refuted :
  exists f x1 x2 xatol maxiter zs r calls, x1 < x2 /\ 0 < xatol /\ (0 < maxiter)%Z /\
  minimize_scalar_bounded f x1 x2 xatol maxiter zs = Ok (r, calls) /\ (maxiter < Z.of_nat (length calls))%Z.
Proof. exact limit_witness. Qed.
Print Assumptions C100_minimiser_evaluation_limit_refuted.

(** C101 *)
Theorem C101_minimiser_finds_unimodal_minimum :
  forall f x1 x2 xs xatol maxiter zs r calls, unimodal f x1 x2 xs -> 0 < xatol ->
  minimize_scalar_bounded f x1 x2 xatol maxiter zs = Ok (r, calls) -> or_success r = true ->
  Qcabs (or_x r - xs) <= qc 2 1 * (sqrt_eps * Qcabs (or_x r) + xatol / qc 3 1).
Proof. exact unimodal_top. Qed.
Print Assumptions C101_minimiser_finds_unimodal_minimum.

Example C101_case : unimodal parabola 0 (qc 3 1) 1. Proof. exact parabola_unimodal. Qed.

(** C56 *)
Theorem C56_inverse_2x2 :
  forall m, (m2_det m = 0 -> m2_inverse m = Throw ERuntime) /\
  (m2_det m <> 0 -> exists i, m2_inverse m = Ok i /\ m2_mul m i = m2_eye /\ m2_mul i m = m2_eye).
Proof. exact m2_inverse_top. Qed.
Print Assumptions C56_inverse_2x2.
Theorem C56_solve_2x2 :
  forall A b, (m2_det A = 0 -> solve2x2 A b = None) /\
  (m2_det A <> 0 -> exists x, solve2x2 A b = Some x /\ m2_apply A x = b /\ forall y, m2_apply A y = b -> y = x).
Proof. exact solve2x2_top. Qed.
Print Assumptions C56_solve_2x2.

(** the 2 x 2 operations are the usual ones *)
Theorem C56_operations_2x2 :
  forall m o v,
  m2_det m = m00 m * m11 m - m01 m * m10 m /\ m2_transpose (m2_transpose m) = m /\
  m2_transpose (m2_mul m o) = m2_mul (m2_transpose o) (m2_transpose m) /\
  m2_det (m2_mul m o) = m2_det m * m2_det o /\ m2_apply (m2_mul m o) v = m2_apply m (m2_apply o v) /\
  m2_apply m (1, 0) = (m00 m, m10 m) /\ m2_apply m (0, 1) = (m01 m, m11 m).
Proof. exact m2_operations_top. Qed.
Print Assumptions C56_operations_2x2.

Example C56_case : m2_det (M2 1 (qc 2 1) (qc 3 1) (qc 4 1)) <> 0. Proof. vm_compute. discriminate. Qed.

(** C102: refuted *)
Theorem C102_initializer_list_refuted :
  exists rows : list (list Qc), length rows = 2%nat /\ (forall r, In r rows -> length r = 2%nat) /\
  m2_of_lists rows <> M2 (nth 0 (nth 0 rows []) 0) (nth 1 (nth 0 rows []) 0) (nth 0 (nth 1 rows []) 0) (nth 1 (nth 1 rows []) 0).
Proof. exact initializer_witness. Qed.
Print Assumptions C102_initializer_list_refuted.

(** C57 *)
Theorem C57_matrix_inverse :
  forall a, md_ok a ->
  (md_rows a <> md_cols a -> md_inverse a = Throw ERuntime) /\
  (md_rows a = md_cols a ->
     md_inverse a = Throw ERuntime \/
     exists b, md_inverse a = Ok b /\ md_ok b /\ md_rows b = md_rows a /\ md_cols b = md_rows a /\ inverse_of (md_rows a) a b) /\
  (md_rows a = md_cols a -> singular (md_rows a) a -> md_inverse a = Throw ERuntime).
Proof. exact md_inverse_top. Qed.
Print Assumptions C57_matrix_inverse.

Example C57_case : md_ok demo_matrix /\ md_rows demo_matrix = md_cols demo_matrix /\ exists b, md_inverse demo_matrix = Ok b.
Proof. exact demo_matrix_case. Qed.
Example C57_singular_case : md_ok demo_singular /\ md_rows demo_singular = md_cols demo_singular /\ singular 2 demo_singular.
Proof. exact demo_singular_case. Qed.

(** C103: refuted *)
Theorem C103_invertible_matrix_inverted_refuted :
  exists a b, md_ok a /\ md_ok b /\ md_rows a = md_cols a /\ inverse_of (md_rows a) a b /\ md_inverse a = Throw ERuntime.
Proof. exact small_pivot_witness. Qed.
Print Assumptions C103_invertible_matrix_inverted_refuted.

(** C58 *)
Theorem C58_product :
  forall a b, md_ok a -> md_ok b ->
  (md_cols a <> md_rows b -> md_mul a b = Throw ERuntime) /\
  (md_cols a = md_rows b -> exists m, md_mul a b = Ok m /\ md_ok m /\ md_rows m = md_rows a /\ md_cols m = md_cols b /\
     forall i j, (i < md_rows a)%nat -> (j < md_cols b)%nat -> entry m i j = qsum (fun k => entry a i k * entry b k j) (md_cols a)).
Proof. exact md_mul_top. Qed.
Print Assumptions C58_product.
Theorem C58_transpose :
  forall a, md_ok a ->
  exists m, md_transpose a = Ok m /\ md_ok m /\ md_rows m = md_cols a /\ md_cols m = md_rows a /\
    forall i j, (i < md_cols a)%nat -> (j < md_rows a)%nat -> entry m i j = entry a j i.
Proof. exact md_transpose_top. Qed.
Print Assumptions C58_transpose.
Theorem C58_associative :
  forall a b c, md_ok a -> md_ok b -> md_ok c -> md_cols a = md_rows b -> md_cols b = md_rows c ->
  exists ab bc r, md_mul a b = Ok ab /\ md_mul b c = Ok bc /\ md_mul ab c = Ok r /\ md_mul a bc = Ok r.
Proof. exact md_assoc_top. Qed.
Print Assumptions C58_associative.
Theorem C58_transpose_of_product :
  forall a b, md_ok a -> md_ok b -> md_cols a = md_rows b ->
  exists ab at' bt r, md_mul a b = Ok ab /\ md_transpose a = Ok at' /\ md_transpose b = Ok bt /\ md_transpose ab = Ok r /\ md_mul bt at' = Ok r.
Proof. exact md_transpose_mul_top. Qed.
Print Assumptions C58_transpose_of_product.

Example C58_case : exists m, md_mul demo_matrix demo_matrix = Ok m. Proof. eexists. vm_compute. reflexivity. Qed.
