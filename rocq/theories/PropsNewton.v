(** Newton's method and the Cholesky solver: properties C59, C60, C104, C105. *)
From Coq Require Import List ZArith Reals.
From Verif Require Import Base ModelNewton SpecNewton ProofCholesky ProofNewton WitnessNewton.
Import ListNotations.
Open Scope R_scope.

(** C59 *)
Theorem C59_cholesky_factor :
  forall n H, msq n H -> symmetric n H ->
  exists st, cholesky n H = Ok st /\ (st <> None <-> positive_definite n H) /\
  (forall L, st = Some L -> msq n L /\ lower_positive n L /\
     forall i j, (i < n)%nat -> (j < n)%nat -> rsum (fun k => ment L i k * ment L j k) n = ment H i j).
Proof. exact factor_top. Qed.
Print Assumptions C59_cholesky_factor.

Theorem C59_linear_solver :
  forall n y0 H b x, msq n H -> symmetric n H -> length b = n -> length x = n -> length y0 = n ->
  exists ok x', solve_linear n y0 H b x = Ok (ok, x') /\ length x' = n /\ (ok = true <-> positive_definite n H) /\
    (ok = true -> solves n H x' b) /\ (ok = false -> x' = x).
Proof. exact solve_top. Qed.
Print Assumptions C59_linear_solver.

Example C59_case_solved : forall y0 x, length y0 = 2%nat -> length x = 2%nat ->
  exists x', solve_linear 2 y0 [[2; 1]; [1; 3]] [5; 10] x = Ok (true, x') /\ vat x' 0 = 1 /\ vat x' 1 = 3.
Proof. exact demo_solves. Qed.
Example C59_case_rejected : forall y0, length y0 = 2%nat ->
  solve_linear 2 y0 [[1; 2]; [2; 1]] [5; 10] [7; 8] = Ok (false, [7; 8]).
Proof. exact demo_rejects. Qed.

(** C60 *)
Theorem C60_newton_never_uphill :
  forall n y0 f point tol maxIter, (forall k, length (y0 k) = n) -> length point = n ->
  exists p, newtonsMethod n y0 f point tol maxIter = Ok p /\ length p = n /\ f p <= f point.
Proof. exact newton_top. Qed.
Print Assumptions C60_newton_never_uphill.

(** C104 *)
Theorem C104_differences_exact_on_quadratics :
  forall n c b A point h, symmetric n A -> length point = n -> h <> 0 ->
  (exists g, computeGradient n (quadratic n c b A) point h = Ok g /\ length g = n /\
     forall i, (i < n)%nat -> vat g i = vat b i + rsum (fun j => ment A i j * vat point j) n) /\
  (exists H, computeHessian n (quadratic n c b A) point h = Ok H /\ msq n H /\
     forall i j, (i < n)%nat -> (j < n)%nat -> ment H i j = ment A i j).
Proof. exact differences_top. Qed.
Print Assumptions C104_differences_exact_on_quadratics.

Example C104_case : symmetric 2 [[2; 1]; [1; 3]] /\ length [101; 203] = 2%nat /\ r_1em7 <> 0.
Proof. exact demo_differences. Qed.

(** C105. [xs] is the minimiser of the convex quadratic and lam a positive lower
    bound of its curvature. *)
Theorem C105_newton_converges_on_convex_quadratics :
  forall n c b A xs lam y0 point tol maxIter,
  msq n A -> symmetric n A -> 0 < lam -> (forall x, lam * rsum (fun i => x i * x i) n <= quad_form n A x) ->
  (forall i, (i < n)%nat -> vat b i + rsum (fun j => ment A i j * vat xs j) n = 0) ->
  (forall k, length (y0 k) = n) -> length point = n ->
  exists p, newtonsMethod n y0 (quadratic n c b A) point tol (Z.of_nat maxIter) = Ok p /\ length p = n /\
    ((lam + r_1em6) ^ (2 * maxIter) * dist2 n p xs <= r_1em6 ^ (2 * maxIter) * dist2 n point xs \/
     lam ^ 2 * dist2 n p xs <= r_1em6 ^ 2 * rsum (fun i => (tol * Rmax 1 (Rabs (vat p i))) ^ 2) n).
Proof. exact convex_top. Qed.
Print Assumptions C105_newton_converges_on_convex_quadratics.

Example C105_case : forall y0, (forall k, length (y0 k) = 2%nat) ->
  exists p, newtonsMethod 2 y0 (quadratic 2 0 [-5; -10] [[2; 1]; [1; 3]]) [101; 203] 0 1 = Ok p /\ dist2 2 p [1; 3] <= 1 / 1000000.
Proof. exact demo_newton. Qed.
