(** basis_funs, curve_point and surface_point once more, with every arithmetic
    operation followed by a rounding.

    [fl k x] is the double the processor delivers for the exact result [x]; None
    stands for a result outside the range of normal numbers (overflow or
    underflow), which ends the run with [Throw ERuntime] (no exception of the
    program is meant). Control points, knots and parameters are taken as the
    program has them, comparisons are exact. [k] is 0 for every operation but
    products that are added at once (1: basis_funs, 2: the sum of weights of
    curve_point, 3: its coordinates, 4: surface_point): for a fused multiply-add
    [fl k] of these is [Some]. Fusing a product kept in saved (nurbs_utils.h:105)
    into the next round of the loop is not modelled. With [fl k = Some] the definitions are those of ModelNurbs and ModelSurface. *)
From Coq Require Import List ZArith QArith Qcanon Bool.
From Verif Require Import Base ModelVec ModelAabb ModelNurbs ModelSurface.
Import ListNotations.
Open Scope Qc_scope.

Section Rounded.
Variable fl : nat -> Qc -> option Qc.

(** the result of one +, -, *, / on doubles in nurbs_utils.h:87-147, 447-501 *)
Definition rnd (k : nat) (x : Qc) : res Qc := match fl k x with Some y => Ok y | None => Throw ERuntime end.

(** the inner loop of basis_funs, nurbs_utils.h:102-106 *)
Definition fbasis_inner (j : nat) (lft rgt : list Qc) (r : nat) (st : list Qc * Qc) : res (list Qc * Qc) :=
  let '(N, saved) := st in
  nr <- get N r ;;
  rr <- get rgt (r + 1) ;;
  lj <- get lft (j - r) ;;
  d <- rnd 0 (rr + lj) ;;
  q <- qdiv nr d ;;
  temp <- rnd 0 q ;;
  m <- rnd 1 (rr * temp) ;;
  n <- rnd 0 (saved + m) ;;
  N <- set_nth N r n ;;
  saved <- rnd 0 (lj * temp) ;;
  Ok (N, saved).

(** the body of the outer loop, nurbs_utils.h:97-108 *)
Definition fbasis_outer (i : nat) (u : Qc) (U : list Qc) (j : nat) (st : list Qc * list Qc * list Qc)
  : res (list Qc * list Qc * list Qc) :=
  let '(N, lft, rgt) := st in
  a <- getZ U (Z.of_nat i + 1 - Z.of_nat j) ;;
  l <- rnd 0 (u - a) ;;
  lft <- set_nth lft j l ;;
  b <- get U (i + j) ;;
  r <- rnd 0 (b - u) ;;
  rgt <- set_nth rgt j r ;;
  '(N, saved) <- for_up j 0 (fbasis_inner j lft rgt) (N, 0) ;;
  N <- set_nth N j saved ;;
  Ok (N, lft, rgt).

(** basis_funs, nurbs_utils.h:87-109 *)
Definition fbasis_funs (i : nat) (u : Qc) (p : nat) (U : list Qc) (N : list Qc) : res (list Qc) :=
  N <- set_nth N 0 1 ;;
  '(N, _, _) <- for_up p 1 (fbasis_outer i u U) (N, zeros, zeros) ;;
  Ok N.

(** the loop of curve_point, nurbs_utils.h:134-141 *)
Definition fcurve_step (p span : nat) (P : list vec4) (N : list Qc) (i : nat) (st : Qc * Qc * Qc * Qc)
  : res (Qc * Qc * Qc * Qc) :=
  let '(sw, x, y, z) := st in
  pt <- getZ P (Z.of_nat span - Z.of_nat p + Z.of_nat i) ;;
  ni <- get N i ;;
  b <- rnd 0 (ni * ww pt) ;;
  bw <- rnd 2 (ni * ww pt) ;; sw <- rnd 0 (sw + bw) ;;
  mx <- rnd 3 (b * wx pt) ;; x <- rnd 0 (x + mx) ;;
  my <- rnd 3 (b * wy pt) ;; y <- rnd 0 (y + my) ;;
  mz <- rnd 3 (b * wz pt) ;; z <- rnd 0 (z + mz) ;;
  Ok (sw, x, y, z).

(** x / sum_of_weights, nurbs_utils.h:142-146, and Sw[d] / Sw[3], nurbs_utils.h:494-499 *)
Definition fdiv (a b : Qc) : res Qc := x <- qdiv a b ;; rnd 0 x.

(** curve_point, nurbs_utils.h:122-147 *)
Definition fcurve_point (n p : nat) (U : list Qc) (P : list vec4) (u : Qc) : res vec3 :=
  span <- find_span n p u U ;;
  N <- fbasis_funs span u p U zeros ;;
  '(sw, x, y, z) <- for_up (p + 1) 0 (fcurve_step p span P N) (0, 0, 0, 0) ;;
  x <- fdiv x sw ;; y <- fdiv y sw ;; z <- fdiv z sw ;;
  Ok (V3 x y z).

(** NURBSCurve::evaluate, nurbs.h:319-325 *)
Definition fevaluate (c : ncurve) (t : Qc) : res vec3 :=
  match length (nc_cps c) with
  | O => UB
  | S n => fcurve_point n (nc_degree c) (nc_knots c) (nc_cps c) t
  end.

(** temp[l][d] += Nu[k] * P[d], nurbs_utils.h:478-480, and the same for Sw *)
Definition faxpy (t : vec4) (a : Qc) (P : vec4) : res vec4 :=
  mx <- rnd 4 (a * wx P) ;; x <- rnd 0 (wx t + mx) ;;
  my <- rnd 4 (a * wy P) ;; y <- rnd 0 (wy t + my) ;;
  mz <- rnd 4 (a * wz P) ;; z <- rnd 0 (wz t + mz) ;;
  mw <- rnd 4 (a * ww P) ;; w <- rnd 0 (ww t + mw) ;;
  Ok (V4 x y z w).

(** body of the loop over k, nurbs_utils.h:466-481 *)
Definition fsurf_inner (p q uspan vspan : nat) (Nu : list Qc) (P : list (list vec4)) (l k : nat) (temp : list vec4)
  : res (list vec4) :=
  nu <- get Nu k ;;
  t <- get temp l ;;
  pt <- get2 P (Z.of_nat uspan - Z.of_nat p + Z.of_nat k) (Z.of_nat vspan - Z.of_nat q + Z.of_nat l) ;;
  t <- faxpy t nu pt ;;
  set_nth temp l t.

(** surface_point, nurbs_utils.h:447-501 *)
Definition fsurface_point (n : option nat) (p : nat) (U : list Qc) (m : option nat) (q : nat) (V : list Qc)
    (P : list (list vec4)) (u v : Qc) : res vec3 :=
  uspan <- surf_span n p u U ;;
  vspan <- surf_span m q v V ;;
  Nu <- fbasis_funs uspan u p U zeros ;;
  Nv <- fbasis_funs vspan v q V zeros ;;
  _ <- get2 P 0 0 ;;
  temp <- for_up (q + 1) 0 (fun l temp => for_up (p + 1) 0 (fsurf_inner p q uspan vspan Nu P l) temp)
            (repeat v4zero DEG_STACK_SIZE) ;;
  Sw <- for_up (q + 1) 0 (fun l s => nv <- get Nv l ;; t <- get temp l ;; faxpy s nv t) v4zero ;;
  x <- fdiv (wx Sw) (ww Sw) ;; y <- fdiv (wy Sw) (ww Sw) ;; z <- fdiv (wz Sw) (ww Sw) ;;
  Ok (V3 x y z).

(** NURBSSurface::evaluate, nurbs.h:812-815 *)
Definition fns_evaluate (s : nsurf) (u v : Qc) : res vec3 :=
  fsurface_point (last_index (ns_su s)) (ns_du s) (ns_ku s) (last_index (ns_sv s)) (ns_dv s) (ns_kv s) (ns_cps s) u v.
End Rounded.
