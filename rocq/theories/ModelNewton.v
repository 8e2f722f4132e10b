(** cmmcore/newthon2.h over the reals. std::array<double,N> is a list of length
    N; every index is checked. All values are finite, so the std::isfinite tests
    and the messages to std::cerr are left out. *)
From Coq Require Import List ZArith Reals.
From Verif Require Import Base.
Import ListNotations.
Open Scope R_scope.

Definition rvec := list R.
Definition rmat := list (list R).

(** double literals *)
Definition rlit (a b : Z) : R := IZR a / IZR b.
Definition r_1em7 : R := rlit 944473296573929 9444732965739290427392.
Definition r_1em6 : R := rlit 4722366482869645 4722366482869645213696.
Definition r_1em5 : R := rlit 5902958103587057 590295810358705651712.
Definition r_1em4 : R := rlit 7378697629483821 73786976294838206464.

(** division, undefined at zero (inf or NaN in the program) *)
Definition rdiv (a b : R) : res R := if Req_EM_T b 0 then UB else Ok (a / b).

Definition mget (m : rmat) (i j : nat) : res R := r <- get m i ;; get r j.
Definition mset (m : rmat) (i j : nat) (x : R) : res rmat := r <- get m i ;; r' <- set_nth r j x ;; set_nth m i r'.
(** MatrixSq<N> m{} and Vector<N> v{} *)
Definition mzero (n : nat) : rmat := repeat (repeat 0 n) n.
Definition vzero (n : nat) : rvec := repeat 0 n.

(** dotProduct, newthon2.h:27-29 *)
Definition rdot (a b : rvec) : R := fold_left (fun acc p => acc + fst p * snd p) (combine a b) 0.

(** computeGradient, newthon2.h:33-68; the state is grad, point_forward,
    point_backward *)
Definition grad_cell (f : rvec -> R) (point : rvec) (h : R) (i : nat) (st : rvec * rvec * rvec) : res (rvec * rvec * rvec) :=
  let '(g, pf, pb) := st in
  original <- get point i ;;
  pf <- set_nth pf i (original + h) ;;
  pb <- set_nth pb i (original - h) ;;
  d <- rdiv (f pf - f pb) (2 * h) ;;
  g <- set_nth g i d ;;
  pf <- set_nth pf i original ;;
  pb <- set_nth pb i original ;;
  Ok (g, pf, pb).
Definition computeGradient (n : nat) (f : rvec -> R) (point : rvec) (h : R) : res rvec :=
  '(g, _, _) <- for_up n 0 (grad_cell f point h) (vzero n, point, point) ;; Ok g.

(** computeHessian, newthon2.h:71-156: the precomputed values, 95-117 *)
Definition hess_pre (f : rvec -> R) (point : rvec) (h : R) (i : nat) (st : rvec * rvec * rvec) : res (rvec * rvec * rvec) :=
  let '(ff, fb, pp) := st in
  x <- get point i ;;
  pp <- set_nth pp i (x + h) ;;
  ff <- set_nth ff i (f pp) ;;
  pp <- set_nth pp i (x - h) ;;
  fb <- set_nth fb i (f pp) ;;
  pp <- set_nth pp i x ;;
  Ok (ff, fb, pp).
(** the off-diagonal entries, newthon2.h:125-152 *)
Definition hess_off (f : rvec -> R) (point : rvec) (h : R) (i j : nat) (st : rmat * rvec) : res (rmat * rvec) :=
  let '(H, pp) := st in
  orig_i <- get point i ;;
  orig_j <- get point j ;;
  pp <- set_nth pp i (orig_i + h) ;;
  pp <- set_nth pp j (orig_j + h) ;;
  let f_pp := f pp in
  pp <- set_nth pp j (orig_j - h) ;;
  let f_pm := f pp in
  pp <- set_nth pp i (orig_i - h) ;;
  pp <- set_nth pp j (orig_j + h) ;;
  let f_mp := f pp in
  pp <- set_nth pp j (orig_j - h) ;;
  let f_mm := f pp in
  d <- rdiv (f_pp - f_pm - f_mp + f_mm) (4 * h * h) ;;
  H <- mset H j i d ;;
  H <- mset H i j d ;;
  pp <- set_nth pp i orig_i ;;
  pp <- set_nth pp j orig_j ;;
  Ok (H, pp).
(** one row, newthon2.h:119-153 *)
Definition hess_row (n : nat) (f : rvec -> R) (point : rvec) (h f0 : R) (ff fb : rvec) (i : nat) (st : rmat * rvec) : res (rmat * rvec) :=
  let '(H, pp) := st in
  f_ii <- get ff i ;;
  f__ii <- get fb i ;;
  d <- rdiv (f_ii - 2 * f0 + f__ii) (h * h) ;;
  H <- mset H i i d ;;
  for_up (n - (i + 1)) (i + 1) (hess_off f point h i) (H, pp).
Definition computeHessian (n : nat) (f : rvec -> R) (point : rvec) (h : R) : res rmat :=
  let f0 := f point in
  '(ff, fb, pp) <- for_up n 0 (hess_pre f point h) (vzero n, vzero n, point) ;;
  '(H, _) <- for_up n 0 (hess_row n f point h f0 ff fb) (mzero n, pp) ;;
  Ok H.

(** choleskyDecomposition, newthon2.h:159-181; None is false. One entry: *)
Definition chol_cell (H : rmat) (i j : nat) (st : option rmat) : res (option rmat) :=
  match st with
  | None => Ok None
  | Some L =>
      s0 <- mget H i j ;;
      sum <- for_up j 0 (fun k s => a <- mget L i k ;; b <- mget L j k ;; Ok (s - a * b)) s0 ;;
      if Nat.eqb i j then
        if Rle_dec sum 0 then Ok None
        else L' <- mset L i j (sqrt sum) ;; Ok (Some L')
      else
        d <- mget L j j ;; x <- rdiv sum d ;; L' <- mset L i j x ;; Ok (Some L')
  end.
Definition cholesky (n : nat) (H : rmat) : res (option rmat) :=
  for_up n 0 (fun i st => for_up (i + 1) 0 (chol_cell H i) st) (Some (mzero n)).

(** forwardSubstitution, newthon2.h:183-191; y comes in with arbitrary values *)
Definition forward_row (L : rmat) (b : rvec) (i : nat) (y : rvec) : res rvec :=
  s0 <- get b i ;;
  sum <- for_up i 0 (fun k s => a <- mget L i k ;; z <- get y k ;; Ok (s - a * z)) s0 ;;
  d <- mget L i i ;; v <- rdiv sum d ;; set_nth y i v.
Definition forward_subst (n : nat) (L : rmat) (b y : rvec) : res rvec := for_up n 0 (forward_row L b) y.

(** backwardSubstitution, newthon2.h:194-202; i runs from N-1 down to 0 *)
Definition backward_row (n : nat) (L : rmat) (y : rvec) (i : nat) (x : rvec) : res rvec :=
  s0 <- get y i ;;
  sum <- for_up (n - (i + 1)) (i + 1) (fun k s => a <- mget L k i ;; z <- get x k ;; Ok (s - a * z)) s0 ;;
  d <- mget L i i ;; v <- rdiv sum d ;; set_nth x i v.
Definition backward_subst (n : nat) (L : rmat) (y x : rvec) : res rvec :=
  for_up n 0 (fun c x => backward_row n L y (n - 1 - c) x) x.

(** solveLinearSystem, newthon2.h:205-217; [y0] is the uninitialised Vector y, x
    is returned unchanged on failure. The bool is the return value. *)
Definition solve_linear (n : nat) (y0 : rvec) (H : rmat) (b x : rvec) : res (bool * rvec) :=
  o <- cholesky n H ;;
  match o with
  | None => Ok (false, x)
  | Some L => y <- forward_subst n L b y0 ;; x <- backward_subst n L y x ;; Ok (true, x)
  end.

(** lineSearch, newthon2.h:220-239, with alpha_init = 1, rho = 0.5, c = 1e-4.
    alpha takes the values 1, 1/2, ..., 2^-1074, which are doubles; halving once
    more rounds to zero, and with alpha = 0 the test compares f(point) with
    itself and the loop ends. *)
Definition shifted (point : rvec) (alpha : R) (direction : rvec) : rvec :=
  map (fun p => fst p + alpha * snd p) (combine point direction).
Fixpoint line_loop (halvings : nat) (f : rvec -> R) (point direction : rvec) (f0 gd alpha : R) : R :=
  if Rle_dec (f (shifted point alpha direction)) (f0 + r_1em4 * alpha * gd) then alpha else
  match halvings with
  | O => 0
  | S k => line_loop k f point direction f0 gd (alpha * (1 / 2))
  end.
Definition lineSearch (f : rvec -> R) (point direction grad : rvec) : R :=
  line_loop 1074 f point direction (f point) (rdot grad direction) 1.

(** the search for mu, newthon2.h:285-297. [fuel] is more than the loop needs:
    running out of it is UB, which the theorems exclude. *)
Definition add_diag (n : nat) (mu : R) (H : rmat) : res rmat :=
  for_up n 0 (fun i m => x <- mget m i i ;; mset m i i (x + mu)) H.
Fixpoint mu_loop (fuel : nat) (n : nat) (y0 : rvec) (H : rmat) (grad step : rvec) (mu : R) : res (bool * rvec) :=
  if Rle_dec mu 1000000 then
    match fuel with
    | O => UB
    | S k =>
        Hm <- add_diag n mu H ;;
        '(ok, step) <- solve_linear n y0 Hm grad step ;;
        if (ok : bool) then Ok (true, step) else mu_loop k n y0 H grad step (mu * 10)
    end
  else Ok (false, step).

(** the update, newthon2.h:316-325 *)
Definition update_cell (alpha tol : R) (step : rvec) (i : nat) (st : rvec * bool) : res (rvec * bool) :=
  let '(point, converged) := st in
  s <- get step i ;;
  let delta := alpha * s in
  x <- get point i ;;
  point <- set_nth point i (x + delta) ;;
  x <- get point i ;;
  Ok (point, if Rle_dec (tol * Rmax 1 (Rabs x)) (Rabs delta) then false else converged).

(** newtonsMethod, newthon2.h:242-334. [y0 iter] is what the uninitialised y
    holds. *)
Fixpoint newton_loop (iters : nat) (n : nat) (y0 : nat -> rvec) (f : rvec -> R) (tol : R) (step point : rvec) : res rvec :=
  match iters with
  | O => Ok point
  | S k =>
      grad <- computeGradient n f point r_1em7 ;;
      H <- computeHessian n f point r_1em5 ;;
      '(ok, step) <- mu_loop 13 n (y0 k) H grad step r_1em6 ;;
      if (ok : bool) then
        let step := map Ropp step in
        let alpha := lineSearch f point step grad in
        if Req_EM_T alpha 0 then Ok point else
        '(point, converged) <- for_up n 0 (update_cell alpha tol step) (point, true) ;;
        if (converged : bool) then Ok point else newton_loop k n y0 f tol step point
      else Ok point
  end.
Definition newtonsMethod (n : nat) (y0 : nat -> rvec) (f : rvec -> R) (point : rvec) (tol : R) (maxIter : Z) : res rvec :=
  newton_loop (Z.to_nat maxIter) n y0 f tol (vzero n) point.
