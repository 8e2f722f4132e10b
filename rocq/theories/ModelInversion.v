(** Point inversion: cmmcore/point_inversion.h, and improve_uv of cmmcore/ssx.h:17-83.
    Arithmetic is exact. [len] is vec3::length (vec.h:267-270), whose result passes
    through sqrtf; None is an infinite length. *)
From Coq Require Import List ZArith QArith Qcanon Bool.
From Verif Require Import Base ModelVec ModelAabb ModelNurbs ModelNumeric ModelDerivative ModelPolygon ModelSurface ModelSurface2.
Import ListNotations.
Open Scope Qc_scope.

(** solve2x2, point_inversion.h:18-29. None: false is returned and [result] is
    not written. *)
Definition solve2x2 (m : mat2) (y0 y1 : Qc) : option (Qc * Qc) :=
  let det := m00 m * m11 m - m01 m * m10 m in
  if Qcabs det <? DBL_EPS then None
  else Some ((y0 * m11 m - m01 m * y1) / det, (m00 m * y1 - y0 * m10 m) / det).

(** k * v.length() <= tol for a number k: infinity and NaN compare false *)
Definition len_le (len : vec3 -> option Qc) (k : Qc) (v : vec3) (tol : Qc) : bool :=
  match len v with Some l => k * l <=? tol | None => false end.

(** |a.dot(b)| / (a.length() * b.length()) <= tol, point_inversion.h:86-88 and
    168-169: a finite number over zero is infinite or NaN, over infinity zero; zero
    times infinity is NaN *)
Definition cos_le (len : vec3 -> option Qc) (a b : vec3) (tol : Qc) : bool :=
  match len a, len b with
  | Some l, Some m => if l * m =? 0 then false else Qcabs (v3dot a b) / (l * m) <=? tol
  | Some l, None | None, Some l => if l =? 0 then false else 0 <=? tol
  | None, None => 0 <=? tol
  end.

(** the loop of point_inversion_curve, point_inversion.h:55-95, with [k] iterations
    left; [c0], [c1], [c2] are C_point, C_prime, C_double_prime *)
Fixpoint invert_curve_loop (len : vec3 -> option Qc) (k : nat) (c : ncurve) (P : vec3) (tol1 tol2 ui : Qc) (c0 c1 c2 : vec3) : res Qc :=
  match k with
  | O => Ok ui
  | S k =>
      let fi := v3dot c1 (v3minus c0 P) in
      let fpi := v3dot c2 (v3minus c0 P) + v3dot c1 c1 in
      if Qcabs fpi <? DBL_EPS then Ok ui else
      let ui1 := ui - fi / fpi in
      if len_le len (Qcabs (ui1 - ui)) c1 tol1 then Ok ui else
      c0 <- evaluate c ui1 ;;
      if len_le len 1 (v3minus c0 P) tol1 then Ok ui else
      c1 <- nc_derivative c ui1 ;;
      if cos_le len c1 (v3minus c0 P) tol2 then Ok ui else
      c2 <- nc_second_derivative_fdm c ui1 ;;
      invert_curve_loop len k c P tol1 tol2 ui1 c0 c1 c2
  end.

(** point_inversion_curve, point_inversion.h:42-98; a negative max_iter is 0 *)
Definition invert_curve (len : vec3 -> option Qc) (c : ncurve) (P : vec3) (u0 tol1 tol2 : Qc) (max_iter : nat) : res Qc :=
  c0 <- evaluate c u0 ;;
  c1 <- nc_derivative c u0 ;;
  c2 <- nc_second_derivative_fdm c u0 ;;
  invert_curve_loop len max_iter c P tol1 tol2 u0 c0 c1 c2.

(** the sum of two lengths times numbers against a tolerance, point_inversion.h:154-155;
    an infinite length times a negative number is minus infinity, times zero NaN *)
Definition len_sum_le (len : vec3 -> option Qc) (k : Qc) (a : vec3) (m : Qc) (b : vec3) (tol : Qc) : bool :=
  match len a, len b with
  | Some l, Some n => k * l + m * n <=? tol
  | None, Some _ => k <? 0
  | Some _, None => m <? 0
  | None, None => (k <? 0) && (m <? 0)
  end.

(** point_inversion_surface, point_inversion.h:111-179 *)
Fixpoint invert_surface (len : vec3 -> option Qc) (k : nat) (s : nsurf) (P : vec3) (u v tol1 tol2 : Qc) : res (Qc * Qc) :=
  match k with
  | O => Ok (u, v)
  | S k =>
      p <- ns_evaluate s u v ;;
      du <- ns_derivative_u s u v ;;
      dv <- ns_derivative_v s u v ;;
      let f := v3dot du (v3minus p P) in
      let g := v3dot dv (v3minus p P) in
      match solve2x2 (M2 (v3dot du du) (v3dot du dv) (v3dot dv du) (v3dot dv dv)) f g with
      | None => Throw ERuntime
      | Some (a, b) =>
          let u1 := u - a in
          let v1 := v - b in
          if len_sum_le len (u1 - u) du (v1 - v) dv tol1 then Ok (u, v) else
          p <- ns_evaluate s u1 v1 ;;
          if len_le len 1 (v3minus p P) tol1 then Ok (u, v) else
          du <- ns_derivative_u s u1 v1 ;;
          if cos_le len du (v3minus p P) tol2 then Ok (u, v) else
          invert_surface len k s P u1 v1 tol1 tol2
      end
  end.

(** std::numeric_limits<double>::min() *)
Definition DBL_MIN : Qc := Q2Qc (1 # (2 ^ 1022)).

(** improve_uv, ssx.h:17-63. The matrices are written with nested braces and so go
    through the constructor from an initializer_list, matrix.h:34 (see
    [m2_of_lists]). None: false. *)
Definition improve_uv (du dv delta : vec3) : option (Qc * Qc) :=
  let mat := [ m2_of_lists [[vx du; vx dv]; [vy du; vy dv]];
               m2_of_lists [[vx du; vx dv]; [vz du; vz dv]];
               m2_of_lists [[vy du; vy dv]; [vz du; vz dv]] ] in
  let y := [ (vx delta, vy delta); (vx delta, vz delta); (vy delta, vz delta) ] in
  let '(dett, n) := fold_left (fun '(dett, n) '(m, r) => if dett <? m2_det m then (m2_det m, Some (m, r)) else (dett, n))
    (combine mat y) (DBL_MIN, None) in
  match n with
  | None => None
  | Some (m, (y0, y1)) =>
      if Qcabs dett <=? DBL_EPS then None
      else Some ((y0 * m11 m - m01 m * y1) / dett, (m00 m * y1 - y0 * m10 m) / dett)
  end.

(** improve_uv_robust, ssx.h:66-83: uv_new after the call. What improve_uv writes
    (and du, dv and xyz_old, which only it uses) is overwritten in line 82. *)
Definition improve_uv_robust (len : vec3 -> option Qc) (s : nsurf) (u v : Qc) (xyz_new : vec3) (tol : Qc) (max_iter : nat) : res (Qc * Qc) :=
  invert_surface len max_iter s xyz_new u v tol tol.
