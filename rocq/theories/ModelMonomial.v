(** cmmcore/monomial.h over exact numbers. *)
From Coq Require Import List ZArith QArith Qcanon.
From Verif Require Import Base ModelVec ModelAabb ModelNurbs ModelSurface ModelBinom ModelNumeric.
Import ListNotations.
Open Scope Qc_scope.

(** bpmat, monomial.h:18-29; n + 1 turns into a size, so below -1 the vector
    constructor throws *)
Definition bpmat_cell (n : Z) (j k : nat) (r : matd) : res matd :=
  a <- binomial_coefficient n (Z.of_nat j) ;;
  b <- binomial_coefficient (Z.of_nat j) (Z.of_nat k) ;;
  md_set r j k ((if Nat.even (j - k) then 1 else - (1)) * Qc_of_Z a * Qc_of_Z b).
Definition bpmat (n : Z) : res matd :=
  if (n <? -1)%Z then Throw ELength else
  let s := Z.to_nat (n + 1) in
  for_up s 0 (fun j r => for_up (j + 1) 0 (fun k r => bpmat_cell n j k r) r) (md_zero s s).

(** Tensor2D<vec3>, monomial.h:31-34. resize(n, row) keeps the rows that are
    there and appends copies of row. *)
Definition tensor3 := list (list vec3).
Definition resize_to {A} (l : list A) (n : nat) (v : A) : list A := firstn n l ++ repeat v (n - length l).
Definition tget {A} (t : list (list A)) (i j : nat) : res A := row <- get t i ;; get row j.
Definition tset {A} (t : list (list A)) (i j : nat) (x : A) : res (list (list A)) :=
  row <- get t i ;; row <- set_nth row j x ;; set_nth t i row.
Definition v3zero : vec3 := V3 0 0 0.

(** operator[] of vec3 and vec4 for the indices 0, 1, 2 used here *)
Definition comp3 (c : nat) (v : vec3) : Qc := match c with O => vx v | S O => vy v | _ => vz v end.
Definition put3 (c : nat) (x : Qc) (v : vec3) : vec3 :=
  match c with O => V3 x (vy v) (vz v) | S O => V3 (vx v) x (vz v) | _ => V3 (vx v) (vy v) x end.
Definition put4 (c : nat) (x : Qc) (v : vec4) : vec4 :=
  match c with O => V4 x (wy v) (wz v) (ww v) | S O => V4 (wx v) x (wz v) (ww v) | _ => V4 (wx v) (wy v) x (ww v) end.

(** getVectorTensor2DComponent, monomial.h:36-49; only used with vec3. The
    matrix that comes in is all zeros of the right size. *)
Definition get_component (arr : tensor3) (c : nat) : res matd :=
  row0 <- get arr 0 ;;
  let cols := length row0 in
  for_up (length arr) 0 (fun i r => row <- get arr i ;;
    for_up (length row) 0 (fun j r => v <- get row j ;; md_set r i j (comp3 c v)) r)
    (md_zero (length arr) cols).

(** setVectorTensor2DComponent, monomial.h:51-61 *)
Definition set_component {A} (put : Qc -> A -> A) (value : matd) (arr : list (list A)) : res (list (list A)) :=
  for_up (length arr) 0 (fun i t => row <- get t i ;;
    for_up (length row) 0 (fun j t => v <- tget t i j ;; x <- md_get value i j ;; tset t i j (put x v)) t) arr.

(** compute_partial_derivative, monomial.h:63-99; [u] selects SurfaceParameter::U.
    The three components are assigned at once. *)
Definition pd_cell_u (coeffs : tensor3) (i j : nat) (t : tensor3) : res tensor3 :=
  v <- tget coeffs i j ;; tset t (i - 1) j (v3scale v (Qc_of_nat i)).
Definition pd_cell_v (coeffs : tensor3) (i j : nat) (t : tensor3) : res tensor3 :=
  v <- tget coeffs i j ;; tset t i (j - 1) (v3scale v (Qc_of_nat j)).
Definition partial_derivative (coeffs : tensor3) (u : bool) (result : tensor3) : res tensor3 :=
  row0 <- get coeffs 0 ;;
  let n := length coeffs in let m := length row0 in
  if u then
    for_up (n - 1) 1 (fun i t => for_up m 0 (fun j t => pd_cell_u coeffs i j t) t)
      (resize_to result (n - 1) (repeat v3zero m))
  else
    match m with
    | O => Throw ELength     (* m - 1 = -1 as a size *)
    | S _ => for_up n 0 (fun i t => for_up (m - 1) 1 (fun j t => pd_cell_v coeffs i j t) t)
               (resize_to result n (repeat v3zero (m - 1)))
    end.

(** cross, monomial.h:101-135 *)
Definition cross_cell (a b : tensor3) (i1 j1 i2 j2 : nat) (t : tensor3) : res tensor3 :=
  x <- tget a i1 j1 ;; y <- tget b i2 j2 ;;
  r <- tget t (i1 + i2) (j1 + j2) ;;
  tset t (i1 + i2) (j1 + j2)
    (V3 (vx r + (vy x * vz y - vz x * vy y)) (vy r + (vz x * vx y - vx x * vz y)) (vz r + (vx x * vy y - vy x * vx y))).
Definition cross_tensor (a b result : tensor3) : res tensor3 :=
  a0 <- get a 0 ;; b0 <- get b 0 ;;
  let n1 := length a in let m1 := length a0 in let n2 := length b in let m2 := length b0 in
  match (m1 + m2)%nat with
  | O => Throw ELength     (* m = -1 as a size *)
  | S m =>
      for_up n1 0 (fun i1 t => for_up m1 0 (fun j1 t => for_up n2 0 (fun i2 t => for_up m2 0 (fun j2 t =>
        cross_cell a b i1 j1 i2 j2 t) t) t) t)
        (resize_to result (n1 + n2 - 1) (repeat v3zero m))
  end.

(** Monomial2D, monomial.h:137-143 *)
Record mono := Mono { mo_n : nat; mo_m : nat; mo_coeffs : tensor3; mo_Mu : matd; mo_Mv : matd; mo_Mui : matd; mo_Mvi : matd }.
Definition mo_default : mono := Mono 0 0 [] (MD [] 0 0) (MD [] 0 0) (MD [] 0 0) (MD [] 0 0).

(** set, monomial.h:191-200 and the constructor from coefficients, 163-168 *)
Definition mo_set (coeffs : tensor3) : res mono :=
  row0 <- get coeffs 0 ;;
  let n := length coeffs in let m := length row0 in
  mu <- bpmat (Z.of_nat n - 1) ;; mv <- bpmat (Z.of_nat m - 1) ;;
  mui <- md_inverse mu ;; mvi <- md_inverse mv ;;
  Ok (Mono n m coeffs mu mv mui mvi).

(** control_points3d, nurbs.h:992-1003 *)
Definition control_points3d (s : nsurf) : res tensor3 :=
  mapM (fun i => mapM (fun j => v <- tget (ns_cps s) i j ;;
    x <- qdiv (wx v) (ww v) ;; y <- qdiv (wy v) (ww v) ;; z <- qdiv (wz v) (ww v) ;; Ok (V3 x y z))
    (seq 0 (ns_sv s))) (seq 0 (ns_su s)).

(** Monomial2D(const NURBSSurface&), monomial.h:175-189 *)
Definition mo_component (cpts : tensor3) (left right : matd) (c : nat) : res matd :=
  cfs <- get_component cpts c ;; a <- md_mul left cfs ;; md_mul a right.
Definition mo_of_surface (s : nsurf) : res mono :=
  let n := ns_su s in let m := ns_sv s in
  mu <- bpmat (Z.of_nat n - 1) ;; mv <- bpmat (Z.of_nat m - 1) ;;
  mui <- md_inverse mu ;; mvi <- md_inverse mv ;;
  cpts <- control_points3d s ;;
  mvt <- md_transpose mv ;;
  co <- for_up 3 0 (fun c co => v <- mo_component cpts mu mvt c ;; set_component (put3 c) v co) (repeat (repeat v3zero m) n) ;;
  Ok (Mono n m co mu mv mui mvi).

(** to_bezier, monomial.h:202-232; [surf] is the surface written to. The size n
    is at least 1 here, coefficients[0] having been read. *)
Definition mo_to_bezier (o : mono) (surf : nsurf) : res nsurf :=
  mvit <- md_transpose (mo_Mvi o) ;;
  cps <- for_up 3 0 (fun c cps => v <- mo_component (mo_coeffs o) (mo_Mui o) mvit c ;; set_component (put4 c) v cps)
    (resize_to (ns_cps surf) (mo_n o) (repeat (V4 0 0 0 1) (mo_m o))) ;;
  match mo_n o, mo_m o with
  | S du, S dv =>
      ku <- gen_knots (mo_n o) du ;; kv <- gen_knots (mo_m o) dv ;;
      ns_update_interval (NS du dv (mo_n o) (mo_m o) (ns_iu surf) (ns_iv surf) cps ku kv (ns_bbox surf) (ns_aabb surf))
  | _, _ => UB     (* degree -1 *)
  end.

(** computePartialDerivative and computeNormal, monomial.h:234-248 *)
Definition mo_partial (o : mono) (u : bool) : res mono := co <- partial_derivative (mo_coeffs o) u [] ;; mo_set co.
Definition mo_normal (o : mono) : res mono :=
  cu <- partial_derivative (mo_coeffs o) true [] ;;
  cv <- partial_derivative (mo_coeffs o) false [] ;;
  co <- cross_tensor cu cv [] ;;
  mo_set co.

(** operator=, monomial.h:250-256, on two different objects *)
Definition mo_assign (dst src : mono) : mono :=
  Mono (mo_n src) (mo_m src) (mo_coeffs src) (mo_Mu dst) (mo_Mv dst) (mo_Mui dst) (mo_Mvi dst).
