(** cmmcore/plane.h over the reals (it takes square roots). [fl] is the rounding
    of a double to float, which vec3::length (sqrtf) and plane_eq_from_pts (three
    float locals) perform; everything else is exact. *)
From Coq Require Import List ZArith Reals Bool.
From Verif Require Import Base.
Import ListNotations.
Open Scope R_scope.

(** struct vec3, vec.h:225; operators, vec.h:318-387; sqLength, vec.h:402 *)
Record v3r := RV { rx : R; ry : R; rz : R }.
Definition rvneg (a : v3r) : v3r := RV (- rx a) (- ry a) (- rz a).
Definition rvsub (a b : v3r) : v3r := RV (rx a - rx b) (ry a - ry b) (rz a - rz b).
Definition rvadd (a b : v3r) : v3r := RV (rx a + rx b) (ry a + ry b) (rz a + rz b).
Definition rvscale (a : v3r) (k : R) : v3r := RV (rx a * k) (ry a * k) (rz a * k).
Definition rvdot (a b : v3r) : R := rx a * rx b + ry a * ry b + rz a * rz b.
Definition rvcross (a b : v3r) : v3r :=
  RV (ry a * rz b - rz a * ry b) (rz a * rx b - rx a * rz b) (rx a * ry b - ry a * rx b).
Definition rvsq (a : v3r) : R := rx a * rx a + ry a * ry a + rz a * rz a.

(** std::numeric_limits<double>::epsilon() and 1e-8 *)
Definition R_EPS : R := IZR 1 / IZR 4503599627370496.
Definition R_1em8 : R := IZR 3022314549036573 / IZR 302231454903657293676544.

(** vec3::length, vec.h:411-419: sqrtf of a double *)
Definition rvlength (fl : R -> R) (a : v3r) : R := fl (sqrt (fl (rvsq a))).
(** vec3::operator/, vec.h:383-385; a zero divisor gives inf or NaN: UB here *)
Definition rvdiv (a : v3r) (k : R) : res v3r := if Req_EM_T k 0 then UB else Ok (RV (rx a / k) (ry a / k) (rz a / k)).
(** vec3::unitize and unit, vec.h:420-437 *)
Definition rvunit (fl : R -> R) (a : v3r) : v3r :=
  let l := rvlength fl a in
  if Rle_dec l R_EPS then a else if Rle_dec (l - 1) R_EPS then a else RV (rx a / l) (ry a / l) (rz a / l).

(** vec4 equation, double denominator, vec3 normal, vec3 origin, plane.h:30-35 *)
Record plane := Plane { p_den : R; p_a : R; p_b : R; p_c : R; p_d : R; p_normal : v3r; p_origin : v3r }.

(** plane(), plane.h:36 *)
Definition plane_default : plane := Plane 1 0 0 1 0 (RV 0 0 1) (RV 0 0 0).
(** computeDenominator and the rest of two constructors, plane.h:38-44, 60-70 *)
Definition plane_of_equation (a b c d : R) : res plane :=
  let den := sqrt (a * a + b * b + c * c) in
  normal <- rvdiv (RV a b c) den ;;
  Ok (Plane den a b c d normal (rvscale normal d)).
(** plane(normal), plane.h:46-49 *)
Definition plane_of_normal (fl : R -> R) (n : v3r) : res plane :=
  let den := rvlength fl n in
  normal <- rvdiv n den ;; Ok (Plane den (rx n) (ry n) (rz n) 0 normal (RV 0 0 0)).
(** plane(origin, normal), plane.h:51-57. The commas in the last argument of
    equation(...) are comma operators: only the last product counts. *)
Definition plane_of_origin_normal (fl : R -> R) (o n : v3r) : res plane :=
  let den := rvlength fl n in
  normal <- rvdiv n den ;; Ok (Plane den (rx n) (ry n) (rz n) (- (rz n * rz o)) normal o).
(** plane_eq_from_pts, plane.h:12-22 *)
Definition plane_eq_from_pts (fl : R -> R) (p0 p1 p2 : v3r) : R * R * R * R :=
  let x3 := fl (ry p0 * rz p1) in
  let x4 := fl (ry p1 * rz p2) in
  let x5 := fl (ry p2 * rz p0) in
  (x3 + x4 + x5 - ry p0 * rz p2 - ry p1 * rz p0 - ry p2 * rz p1,
   - rx p0 * rz p1 + rx p0 * rz p2 + rx p1 * rz p0 - rx p1 * rz p2 - rx p2 * rz p0 + rx p2 * rz p1,
   rx p0 * ry p1 - rx p0 * ry p2 - rx p1 * ry p0 + rx p1 * ry p2 + rx p2 * ry p0 - rx p2 * ry p1,
   - rx p0 * x4 + rx p0 * ry p2 * rz p1 - rx p1 * x5 + rx p1 * ry p0 * rz p2 - rx p2 * x3 + rx p2 * ry p1 * rz p0).
(** plane(tuple), plane.h:59-65 *)
Definition plane_of_points (fl : R -> R) (p0 p1 p2 : v3r) : res plane :=
  let '(a, b, c, d) := plane_eq_from_pts fl p0 p1 p2 in plane_of_equation a b c d.

(** the polynomial in signedDistance and in the intersections *)
Definition plane_poly (p : plane) (q : v3r) : R := rx q * p_a p + ry q * p_b p + rz q * p_c p + p_d p.
(** plane::signedDistance, plane.h:72-75 *)
Definition signed_distance (p : plane) (q : v3r) : res R :=
  if Req_EM_T (p_den p) 0 then UB else Ok (plane_poly p q / p_den p).

(** planeRayIntersection, plane.h:86-112: None is false *)
Definition plane_ray (p : plane) (start direction : v3r) : option v3r :=
  let N := - plane_poly p start in
  let D := p_a p * rx direction + p_b p * ry direction + p_c p * rz direction in
  if Rlt_dec (Rabs D) R_1em8 then (if Rlt_dec (Rabs N) R_1em8 then Some start else None)
  else Some (rvadd start (rvscale direction (N / D))).
(** planeLineIntersection, plane.h:114-149 *)
Definition plane_line (p : plane) (start e : v3r) : option v3r :=
  let direction := rvsub e start in
  let N := - plane_poly p start in
  let D := p_a p * rx direction + p_b p * ry direction + p_c p * rz direction in
  if Rlt_dec (Rabs D) R_EPS then (if Rlt_dec (Rabs N) R_EPS then Some start else None)
  else let t := N / D in
    if Rlt_dec t 0 then None else if Rlt_dec 1 t then None else Some (rvadd start (rvscale direction t)).
(** planePlaneIntersection, plane.h:151-229 *)
Definition max_index (a1 b1 c1 : R) : nat :=
  let '(i, m) := if Rlt_dec (Rabs a1) (Rabs b1) then (1%nat, Rabs b1) else (0%nat, Rabs a1) in
  if Rlt_dec m (Rabs c1) then 2%nat else i.
Definition plane_plane (p q : plane) : option (v3r * v3r) :=
  let dir := rvcross (p_normal p) (p_normal q) in
  if Rlt_dec (rvsq dir) R_EPS then None else
  let a1 := p_a p in let b1 := p_b p in let c1 := p_c p in let d1 := p_d p in
  let a2 := p_a q in let b2 := p_b q in let c2 := p_c q in let d2 := p_d q in
  let point :=
    match max_index a1 b1 c1 with
    | 0%nat => let det := b1 * c2 - b2 * c1 in if Rlt_dec (Rabs det) R_EPS then None
               else Some (RV 0 ((c2 * - d1 - c1 * - d2) / det) ((b1 * - d2 - b2 * - d1) / det))
    | 1%nat => let det := a1 * c2 - a2 * c1 in if Rlt_dec (Rabs det) R_EPS then None
               else Some (RV ((c2 * - d1 - c1 * - d2) / det) 0 ((a1 * - d2 - a2 * - d1) / det))
    | _ => let det := a1 * b2 - a2 * b1 in if Rlt_dec (Rabs det) R_EPS then None
               else Some (RV ((b2 * - d1 - b1 * - d2) / det) ((a1 * - d2 - a2 * - d1) / det) 0)
    end in
  match point with None => None | Some pt => Some (pt, rvadd pt dir) end.
(** determinant3x3, plane.h:279-286 *)
Definition det3 (m00 m01 m02 m10 m11 m12 m20 m21 m22 : R) : R :=
  m00 * (m11 * m22 - m12 * m21) - m01 * (m10 * m22 - m12 * m20) + m02 * (m10 * m21 - m11 * m20).
(** planePlanePlaneIntersection, plane.h:231-276 *)
Definition plane_plane_plane (p q r : plane) : option v3r :=
  let a1 := p_a p in let b1 := p_b p in let c1 := p_c p in let d1 := p_d p in
  let a2 := p_a q in let b2 := p_b q in let c2 := p_c q in let d2 := p_d q in
  let a3 := p_a r in let b3 := p_b r in let c3 := p_c r in let d3 := p_d r in
  let Det := det3 a1 b1 c1 a2 b2 c2 a3 b3 c3 in
  if Rlt_dec (Rabs Det) R_1em8 then None else
  let Dx := det3 (- d1) b1 c1 (- d2) b2 c2 (- d3) b3 c3 in
  let Dy := det3 a1 (- d1) c1 a2 (- d2) c2 a3 (- d3) c3 in
  let Dz := det3 a1 b1 (- d1) a2 b2 (- d2) a3 b3 (- d3) in
  Some (RV (Dx / Det) (Dy / Det) (Dz / Det)).

(** isPtsCoplanar, plane.h:289-306. With a zero denominator the distance is a NaN,
    not >= eps, when the numerator is zero and infinite otherwise. *)
Definition too_far (num den eps : R) : bool :=
  if Req_EM_T den 0 then (if Req_EM_T num 0 then false else true)
  else if Rle_dec eps (Rabs (num / den)) then true else false.
Definition is_pts_coplanar (fl : R -> R) (eps : R) (pts : list v3r) : bool :=
  match pts with
  | p0 :: p1 :: p2 :: _ :: rest =>
      let '(a, b, c, d) := plane_eq_from_pts fl p0 p1 p2 in
      let den := sqrt (a * a + b * b + c * c) in
      forallb (fun q => negb (too_far (rx q * a + ry q * b + rz q * c + d) den eps)) rest
  | _ => true
  end.

(** class cplane, plane.h:308-358 *)
Record cplane := CPlane { c_plane : plane; c_x : v3r; c_y : v3r }.
(** cplane(origin, xaxis, yaxis), plane.h:316-319 *)
Definition cplane_make (fl : R -> R) (o x y : v3r) : res cplane :=
  p <- plane_of_origin_normal fl o (rvcross x y) ;; Ok (CPlane p x y).
(** cplane::signedDistance, plane.h:328 *)
Definition cplane_distance (c : cplane) (q : v3r) : res R := signed_distance (c_plane c) (rvsub q (p_origin (c_plane c))).
(** evaluate and evaluateInv, plane.h:330-343 *)
Definition cplane_evaluate (c : cplane) (u v : R) : v3r :=
  rvadd (rvadd (p_origin (c_plane c)) (rvscale (c_x c) u)) (rvscale (c_y c) v).
Definition cplane_inverse (c : cplane) (q : v3r) : v3r :=
  let t := rvsub q (p_origin (c_plane c)) in RV (rvdot t (c_x c)) (rvdot t (c_y c)) (rvdot t (p_normal (c_plane c))).
