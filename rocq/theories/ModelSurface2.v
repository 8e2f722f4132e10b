(** More of cmmcore::NURBSSurface (cmmcore/nurbs.h:817-841, 1544-1614):
    differences, normals, decomposition and cross products of surfaces. *)
From Coq Require Import List ZArith QArith Qcanon Bool.
From Verif Require Import Base ModelVec ModelAabb ModelNurbs ModelSurface ModelDerivative ModelCsx.
Import ListNotations.
Open Scope Qc_scope.

(** derivative_u and derivative_v, nurbs.h:817-833; 2 * 1e-5 is exact *)
Definition ns_derivative_u (s : nsurf) (u v : Qc) : res vec3 :=
  a <- ns_evaluate s (u - fdm_h) v ;;
  b <- ns_evaluate s (u + fdm_h) v ;;
  Ok (v3scale_div (v3minus b a) fdm_2h).
Definition ns_derivative_v (s : nsurf) (u v : Qc) : res vec3 :=
  a <- ns_evaluate s u (v - fdm_h) ;;
  b <- ns_evaluate s u (v + fdm_h) ;;
  Ok (v3scale_div (v3minus b a) fdm_2h).

(** normal, nurbs.h:835-841; normalize is vec3::unitize, vec.h:429-431. [len]
    is the length sqrtf returns, None for infinity *)
Definition ns_normal (len : vec3 -> option Qc) (s : nsurf) (u v : Qc) : res vec3 :=
  du <- ns_derivative_u s u v ;;
  dv <- ns_derivative_v s u v ;;
  Ok (vunit len (v3cross du dv)).

(** the loops of decompose(direction), nurbs.h:1553-1561, 1565-1573: split at
    every knot but those equal to the first or the last; [dir_u] is
    direction == U *)
Fixpoint ns_decompose_loop (dir_u : bool) (k0 k1 : Qc) (temp : nsurf) (ks : list Qc) : res (list nsurf) :=
  match ks with
  | [] => Ok [temp]
  | k :: t =>
      if negb (k =? k0) && negb (k =? k1) then
        '(a, b) <- (if dir_u then ns_split_u temp k lit_1em7 else ns_split_v temp k lit_1em7) ;;
        rest <- ns_decompose_loop dir_u k0 k1 b t ;;
        Ok (a :: rest)
      else ns_decompose_loop dir_u k0 k1 temp t
  end.

(** decompose(direction, bezierSurfaces), nurbs.h:1544-1575: the surfaces
    appended. SurfaceParameter has the values U and V only. *)
Definition ns_decompose_dir (dir_u : bool) (s : nsurf) : res (list nsurf) :=
  temp <- ns_update_interval s ;;
  let uknots := uniqueKnots (if dir_u then ns_ku temp else ns_kv temp) in
  match uknots with
  | [] => Ok [temp]
  | k0 :: _ => ns_decompose_loop dir_u k0 (last uknots 0) temp uknots
  end.

(** decompose(bezierSurfaces), nurbs.h:1577-1583 *)
Definition ns_decompose (s : nsurf) : res (list nsurf) :=
  strips <- ns_decompose_dir true s ;;
  parts <- mapM (ns_decompose_dir false) strips ;;
  Ok (concat parts).

(** vec4::cross(b, result), vec.h:857-864 *)
Definition v4cross_into (a b : vec4) : res vec4 :=
  v1 <- to_vec3 a ;; v2 <- to_vec3 b ;;
  Ok (V4 (vy v1 * vz v2 - vz v2 * vy v2) (vz v1 * vx v2 - vx v2 * vz v2) (vx v1 * vy v2 - vy v2 * vx v2) 1).

(** cross(a, b), nurbs.h:1610-1614 with surfaceCrossProduct, 1586-1604: the
    result starts default-constructed and its _size is not set *)
Definition ns_cross (a b : nsurf) : res nsurf :=
  cps <- mapM (fun k => mapM (fun j =>
           p <- get2 (ns_cps a) (Z.of_nat k) (Z.of_nat j) ;;
           q <- get2 (ns_cps b) (Z.of_nat j) (Z.of_nat k) ;;
           v4cross_into p q) (seq 0 (ns_sv a))) (seq 0 (ns_su a)) ;;
  ns_update_interval
    (NS (ns_du a) (ns_dv b) 0 0 (0, 0) (0, 0) cps (ns_ku a) (ns_kv b) (Box (v3all 0) (v3all 0)) aabb_default).
