(** cmmcore/vec.h over the reals: lengths, angles, products and comparisons of
    vec2, vec3 and vec4. Scalar code paths. [fl] is the rounding of a double to
    float performed by sqrtf. Signed zeros are not distinguished. *)
From Coq Require Import List ZArith Reals Bool.
From Verif Require Import Base ModelPlane ModelNewton.
Import ListNotations.
Open Scope R_scope.

(** struct vec2, vec.h:74-75; struct vec4, vec.h:681-682 *)
Record v2r := RV2 { r2x : R; r2y : R }.
Record v4r := RV4 { r4x : R; r4y : R; r4z : R; r4w : R }.

(** std::atan2(y, x); at the origin 0 *)
Definition ratan2 (y x : R) : R :=
  if Rlt_dec 0 x then atan (y / x)
  else if Rlt_dec x 0 then (if Rlt_dec y 0 then atan (y / x) - PI else atan (y / x) + PI)
  else if Rlt_dec 0 y then PI / 2 else if Rlt_dec y 0 then - (PI / 2) else 0.

(** cartesian_to_spherical and spherical_to_cartesian, vec.h:638-656 *)
Definition to_spherical (p : v3r) : v3r :=
  let q := rx p * rx p + ry p * ry p in
  RV (sqrt (q + rz p * rz p)) (ratan2 (sqrt q) (rz p)) (ratan2 (ry p) (rx p)).
Definition of_spherical (s : v3r) : v3r :=
  RV (rx s * sin (ry s) * cos (rz s)) (rx s * sin (ry s) * sin (rz s)) (rx s * cos (ry s)).
(** the two angles only, vec.h:658-670 *)
Definition to_angles (p : v3r) : v2r :=
  RV2 (ratan2 (sqrt (rx p * rx p + ry p * ry p)) (rz p)) (ratan2 (ry p) (rx p)).
Definition of_angles (s : v2r) : v3r :=
  RV (1 * sin (r2x s) * cos (r2y s)) (1 * sin (r2x s) * sin (r2y s)) (1 * cos (r2x s)).
(** for a list, vec.h:671-678: tp is resized and every element assigned *)
Definition to_angles_all (xyz : list v3r) (tp : list v2r) : res (list v2r) :=
  let tp := firstn (length xyz) tp ++ repeat (RV2 0 0) (length xyz - length tp) in
  for_up (length xyz) 0 (fun i tp => p <- get xyz i ;; set_nth tp i (to_angles p)) tp.

(** operator==, vec.h:281-286 (vec3), 349-351 (vec3 with vec2), 761-766 (vec4) *)
Definition near (a b : R) : bool := if Rlt_dec (Rabs (a - b)) R_EPS then true else false.
Definition same (a b : R) : bool := if Req_EM_T a b then true else false.
Definition r3eqb (a b : v3r) : bool := near (rx a) (rx b) && near (ry a) (ry b) && near (rz a) (rz b).
Definition r3eq2 (a : v3r) (b : v2r) : bool := same (r2x b) (rx a) && same (r2y b) (ry a).
Definition r4eqb (a b : v4r) : bool := near (r4x a) (r4x b) && near (r4y a) (r4y b) && near (r4z a) (r4z b).

(** CMMCORE_VEC_PROJECT, vec.h:69, in vec3::project, vec.h:438-440 *)
Definition rproject (a b : v3r) : res v3r := k <- rdiv (rvdot a b) (rvdot b b) ;; Ok (rvscale b k).
(** vectorProjection, vec.h:448-469 *)
Definition vector_projection (a b : v3r) : res v3r :=
  let x0 := rx b ^ 2 in let x1 := ry b ^ 2 in let x2 := rz b ^ 2 in
  x3 <- rdiv 1 (x0 + x1 + x2) ;;
  let x4 := ry a * x3 in let x5 := rx b * ry b in let x6 := rz a * x3 in let x7 := rz b * x6 in let x8 := rx a * x3 in
  Ok (RV (rx b * x7 + x0 * x8 + x4 * x5) (ry b * x7 + x1 * x4 + x5 * x8) (rx b * rz b * x8 + ry b * rz b * x4 + x2 * x6)).

(** vec2::dot, length, unit, vec.h:162-164, 172-174, 192-202 *)
Definition r2dot (a b : v2r) : R := r2x a * r2x b + r2y a * r2y b.
Definition r2len (a : v2r) : R := sqrt (r2dot a a).
Definition r2unit (a : v2r) : res v2r :=
  let l := r2len a in if Req_EM_T l 0 then Throw EInvalidArgument else Ok (RV2 (r2x a / l) (r2y a / l)).
(** cross of two vec2, vec.h:218-220 *)
Definition r2cross (a b : v2r) : R := r2x a * r2y b - r2y a * r2x b.
(** CMMCORE_VEC_COLLINEAR, vec.h:70; collinear, vec.h:203-205 (vec2), 441-443 (vec3) *)
Definition r2collinear (a b : v2r) : res bool := u <- r2unit a ;; v <- r2unit b ;; Ok (same (Rabs (r2dot u v)) 1).
Definition r3collinear (fl : R -> R) (a b : v3r) : bool := same (Rabs (rvdot (rvunit fl a) (rvunit fl b))) 1.

(** dist, dist2, mag2, vec.h:608-625; the root of a negative number is NaN: None *)
Definition rsqrt (x : R) : option R := if Rlt_dec x 0 then None else Some (sqrt x).
Definition rdist (a b : v3r) : option R := rsqrt ((rx a - rx b) + (ry a - ry b) + (rz a - rz b)).
Definition rdist2 (a b : v3r) : R := rvsq (rvsub a b).
Definition rmag2 (a : v3r) : option R := match rsqrt (rx a) with Some l => Some (l + ry a * ry a + rz a * rz a) | None => None end.

(** dot_product, vec.h:601-605: the arrays of a Vectors3 and of the result *)
Definition dot_product (v : v3r) (size : nat) (xs ys zs result : list R) : res (list R) :=
  for_up (size + 1) 0 (fun i result => x <- get xs i ;; y <- get ys i ;; z <- get zs i ;;
    set_nth result i (rx v * x + ry v * y + rz v * z)) result.

(** vec4: to_vec3, vec.h:710-714; dot, vec.h:817-847; operator+, vec.h:887-899; add, vec.h:919-934;
    cross, vec.h:849-864; sqLength and length, vec.h:937-954; unitize and unit, vec.h:955-976 *)
Definition r4to3 (a : v4r) : res v3r :=
  x <- rdiv (r4x a) (r4w a) ;; y <- rdiv (r4y a) (r4w a) ;; z <- rdiv (r4z a) (r4w a) ;; Ok (RV x y z).
Definition r4dot (a b : v4r) : R := r4x a * r4x b + r4y a * r4y b + r4z a * r4z b.
Definition r4dot_neon (a b : v4r) : R := r4x a * r4x b + r4y a * r4y b + r4z a * r4z b + r4w a * r4w b.
Definition r4plus (a b : v4r) : v4r := RV4 (r4x a + r4x b) (r4y a + r4y b) (r4z a + r4z b) (r4w a + r4w b).
Definition r4add (a b result : v4r) : v4r := RV4 (r4x a + r4x b) (r4y a + r4y b) (r4z a + r4z b) (r4w result).
Definition r4cross (a b : v4r) : v4r :=
  RV4 (r4y a * r4z b - r4z a * r4y b) (r4z a * r4x b - r4x a * r4z b) (r4x a * r4y b - r4y a * r4x b) 1.
Definition r4cross_into (a b : v4r) : res v4r :=
  v1 <- r4to3 a ;; v2 <- r4to3 b ;;
  Ok (RV4 (ry v1 * rz v2 - rz v2 * ry v2) (rz v1 * rx v2 - rx v2 * rz v2) (rx v1 * ry v2 - ry v2 * rx v2) 1).
Definition r4sq (a : v4r) : R := r4x a * r4x a + r4y a * r4y a + r4z a * r4z a + r4w a * r4w a.
Definition r4length (fl : R -> R) (a : v4r) : R := fl (sqrt (fl (r4sq a))).
Definition r4unit (fl : R -> R) (a : v4r) : res v4r :=
  let l := r4length fl a in
  if Rle_dec l R_EPS then Ok a else if Rle_dec (l - 1) R_EPS then Ok a else
  x <- rdiv (r4x a) (r4w a * l) ;; y <- rdiv (r4y a) (r4w a * l) ;; z <- rdiv (r4z a) (r4w a * l) ;; Ok (RV4 x y z 1).
