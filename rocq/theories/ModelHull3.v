(** Model of the convex_hull functions of cmmcore/convexhull.h and of the class
    GaussMap of cmmcore/gauss_map.h. *)
From Coq Require Import List ZArith QArith Qcanon Reals Qreals Bool.
From Verif Require Import Base ModelVec ModelPlane ModelPolygon ModelNurbs ModelSurface ModelMonomial ModelCsx ModelSsx.
Import ListNotations.
Local Open Scope Qc_scope.

(** enum class ConvexHullResult, convexhull.h:12-14 *)
Inductive hull_kind := VOLUME | FLAT | LINE | POINT | EMPTY.
(** the number as a real, for isPtsCoplanar *)
Definition real3 (p : vec3) : v3r := RV (Q2R (this (vx p))) (Q2R (this (vy p))) (Q2R (this (vz p))).
(** std::find(pts1.begin(), pts1.end(), i) with a vec2 i and *res,
    convexhull.h:28-30; operator== of vec3 and vec2, vec.h:349-351 *)
Definition find_above (pts : list vec3) (i : vec2) : res vec3 :=
  of_option (find (fun p => (ux i =? vx p) && (uy i =? vy p)) pts).
(** convex_hull of points in space, convexhull.h:16-48: the kind and pts1hull,
    which holds [hull] before. [hull3d] is convex_hull3d (quickhull), [sort] is
    std::sort. *)
Definition convex_hull3 (fl : R -> R) (sort : (vec2 -> vec2 -> bool) -> list vec2 -> list vec2) (hull3d : list vec3 -> list vec3 -> res (list vec3))
    (pts hull : list vec3) : res (hull_kind * list vec3) :=
  match pts with [] => Ok (EMPTY, hull) | _ =>
    hull <- (if is_pts_coplanar fl R_EPS (map real3 pts) then
      if Nat.ltb 3 (length pts) then
        h <- convex_hull2d sort (map (fun p => V2 (vx p) (vy p)) pts) ;;
        more <- mapM (find_above pts) h ;; Ok (hull ++ more)
      else Ok pts
    else hull3d pts hull) ;;
    Ok (match length hull with 1%nat => POINT | 2%nat => LINE | 3%nat => FLAT | _ => VOLUME end, hull)
  end.
(** convex_hull of points in the plane, convexhull.h:50-64 *)
Definition convex_hull2 (sort : (vec2 -> vec2 -> bool) -> list vec2 -> list vec2) (pts hull : list vec2) : res (hull_kind * list vec2) :=
  match pts with [] => Ok (EMPTY, hull) | _ =>
    hull <- convex_hull2d sort pts ;;
    Ok (match length hull with 1%nat => POINT | 2%nat => LINE | _ => FLAT end, hull)
  end.

(** class GaussMap: pts, pts_inv and surf, gauss_map.h:37-54 *)
Record gmap := GM { gm_pts : list vec3; gm_inv : list vec3; gm_surf : nsurf }.
(** solveInvPts, gauss_map.h:43-52, after pts is set to the control points *)
Definition gm_of_surf (s : nsurf) : res gmap := pts <- flat3d s ;; Ok (GM pts (inverse_points pts) s).
(** the constructor and build, gauss_map.h:58-80 *)
Definition gm_build (s : nsurf) : res gmap := g <- gauss_map s ;; gm_of_surf g.
(** separabilityTest, gauss_map.h:82-90; [sph] is SphericalSeparabilityTest *)
Definition gm_separable (sph : list vec3 -> list vec3 -> res bool) (g h : gmap) : res bool :=
  _ <- sph (gm_pts g) (gm_pts h) ;;
  a <- sph (gm_pts g) (gm_pts h) ;; if negb a then Ok false else
  b <- sph (gm_pts g) (gm_inv h) ;; if negb b then Ok false else
  c <- sph (gm_inv g) (gm_inv h) ;; if negb c then Ok false else
  sph (gm_inv g) (gm_pts h).
(** subdivide, gauss_map.h:93-120, with subdivide of the surface, nurbs.h:1043-1060 *)
Definition gm_subdivide (g : gmap) : res (gmap * gmap * gmap * gmap) :=
  _ <- flat3d (gm_surf g) ;;
  let umid := qc 1 2 * (snd (ns_iu (gm_surf g)) + fst (ns_iu (gm_surf g))) in
  let vmid := qc 1 2 * (snd (ns_iv (gm_surf g)) + fst (ns_iv (gm_surf g))) in
  '(s11, s12, s21, s22) <- ns_subdivide_at (gm_surf g) umid vmid ;;
  g11 <- gm_of_surf s11 ;; g12 <- gm_of_surf s12 ;; g21 <- gm_of_surf s21 ;; g22 <- gm_of_surf s22 ;;
  Ok (g11, g12, g21, g22).
