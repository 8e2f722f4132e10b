(** Model of cmmcore/ssx.h: where two surfaces meet, by recursive subdivision;
    of SAT3D of cmmcore/separability.h; and of cmmcore/gauss_map.h. *)
From Coq Require Import List ZArith QArith Qcanon Bool.
From Verif Require Import Base ModelVec ModelAabb ModelNurbs ModelSurface ModelSurface2 ModelBoundary ModelGjk ModelMonomial ModelCsx.
Import ListNotations.
Open Scope Qc_scope.

(** SAT3D, separability.h:222-264. [hull] is convex_hull3d: the points of the
    second argument after the call. [odd] is the outcome of the last comparison
    when the closest point comes from a division by zero. *)
Definition sat3d (hull : list vec3 -> res (list vec3)) (len : vec3 -> option Qc) (odd : list vec3 -> list vec3 -> bool) (eps : Qc) (pts1 pts2 : list vec3) : res bool :=
  hull1 <- hull pts1 ;; hull2 <- hull pts2 ;;
  r <- gjk hull1 hull2 [] (V3 0 0 0) eps GJK_ITERATIONS ;;
  Ok (match closest r with Ok cpt => match len cpt with Some l => eps <? l | None => true end | _ => odd pts1 pts2 end).

(** inverseControlPoints, gauss_map.h:25-36 *)
Definition inverse_points (pts : list vec3) : list vec3 := map (fun p => V3 (- vx p) (- vy p) (- vz p)) pts.

(** gaussMap, gauss_map.h:123-131 *)
Definition gauss_map (s : nsurf) : res nsurf := o <- mo_of_surface s ;; n <- mo_normal o ;; mo_to_bezier n ns_default.

(** gaussMapSeparability, gauss_map.h:132-147; [sph] is SphericalSeparabilityTest,
    see [spherical_test] *)
Definition gauss_separable (sph : list vec3 -> list vec3 -> res bool) (g1 g2 : nsurf) : res bool :=
  pts1 <- flat3d g1 ;; pts2 <- flat3d g2 ;;
  let inv1 := inverse_points pts1 in let inv2 := inverse_points pts2 in
  a <- sph pts1 pts2 ;; if negb a then Ok false else
  b <- sph pts1 inv2 ;; if negb b then Ok false else
  c <- sph inv1 inv2 ;; if negb c then Ok false else
  sph inv1 pts2.

(** PointIntersection, ssx.h:90-100, and Intersection, 114-119 *)
Record ssx_point := SP { sp_uv1 : Qc * Qc; sp_uv2 : Qc * Qc; sp_xyz : vec3 }.
Record ssx_out := SO { so_patches : list (ipoint * ipoint); so_points : list ssx_point }.

(** 0.5 * (i[1] + i[0]) *)
Definition middle (iv : Qc * Qc) : Qc := qc 1 2 * (snd iv + fst iv).

Section Ssx.
(** csx as called by find_boundary_intersections; SAT3D; SphericalSeparabilityTest *)
Variable csx : ncurve -> nsurf -> Qc -> res (list (vec3 * (Qc * Qc * Qc))).
Variable apart : list vec3 -> list vec3 -> res bool.
Variable sph : list vec3 -> list vec3 -> res bool.
Variable tol : Qc.

(** processSimpleSurfaceIntersection, ssx.h:121-155 *)
Definition process_simple (s1 s2 : nsurf) (out : ssx_out) : res ssx_out :=
  ixs <- find_boundary_intersections csx s1 s2 [] tol ;;
  let n := length ixs in
  if (2 <=? n)%nat then
    a <- get ixs 0 ;; b <- get ixs (n - 1) ;; Ok (SO (so_patches out ++ [(a, b)]) (so_points out))
  else Ok out.

(** ssx.h:180: no side longer than the tolerance *)
Definition tiny (b : aabb) : bool :=
  let d := v3sub (bmax b) (bmin b) in (vx d <=? tol) && (vy d <=? tol) && (vz d <=? tol).
(** ssx.h:207-208 *)
Definition thin (b : aabb) : bool :=
  let d := v3sub (bmax b) (bmin b) in
  (aabb_volume b <? tol) || (Qcabs (vx d) <=? tol) || (Qcabs (vy d) <=? tol) || (Qcabs (vz d) <=? tol).
(** the point reported, ssx.h:186-199 *)
Definition middle_point (s1 s2 : nsurf) (b1 b2 : aabb) : ssx_point :=
  SP (middle (ns_iu s1), middle (ns_iv s1)) (middle (ns_iu s2), middle (ns_iv s2))
     (v3scale (v3add (v3add (v3add (bmin b1) (bmax b1)) (bmin b2)) (bmax b2)) (qc 1 4)).

(** the two loops, ssx.h:248-254; a surface goes with its Gauss map *)
Fixpoint inner_loop (rec : nsurf * nsurf -> nsurf * nsurf -> ssx_out -> option (res ssx_out))
  (a : nsurf * nsurf) (bs : list (nsurf * nsurf)) (out : ssx_out) : option (res ssx_out) :=
  match bs with
  | [] => Some (Ok out)
  | b :: rest => andthen (rec a b out) (fun out => inner_loop rec a rest out)
  end.
Fixpoint outer_loop (rec : nsurf * nsurf -> nsurf * nsurf -> ssx_out -> option (res ssx_out))
  (al bs : list (nsurf * nsurf)) (out : ssx_out) : option (res ssx_out) :=
  match al with
  | [] => Some (Ok out)
  | a :: rest => andthen (inner_loop rec a bs out) (fun out => outer_loop rec rest bs out)
  end.

(** detectIntersections, ssx.h:158-255. [None]: the fuel does not suffice. The
    call counter and the argument depth have no effect. intersection() writes its
    result since the boxes intersect. *)
Fixpoint detect (fuel : nat) (sg1 sg2 : nsurf * nsurf) (out : ssx_out) : option (res ssx_out) :=
  match fuel with
  | O => None
  | S f =>
      let '(s1, g1) := sg1 in let '(s2, g2) := sg2 in
      lift (ns_bbox_of s1) (fun b1 =>
      lift (ns_bbox_of s2) (fun b2 =>
      match aabb_intersection b1 b2 with
      | None => Some (Ok out)
      | Some b =>
          if tiny b1 && tiny b2 then Some (Ok (SO (so_patches out) (so_points out ++ [middle_point s1 s2 b1 b2]))) else
          if thin b then Some (Ok out) else
          lift (flat3d s1) (fun p1 => lift (flat3d s2) (fun p2 =>
          lift (apart p1 p2) (fun away => if away then Some (Ok out) else
          lift (gauss_separable sph g1 g2) (fun simple =>
          if simple then Some (process_simple s1 s2 out) else
          lift (ns_subdivide s1) (fun q1 => lift (ns_subdivide s2) (fun q2 =>
          lift (ns_subdivide g1) (fun h1 => lift (ns_subdivide g2) (fun h2 =>
          let '(s11, s12, s13, s14) := q1 in let '(s21, s22, s23, s24) := q2 in
          let '(g11, g12, g13, g14) := h1 in let '(g21, g22, g23, g24) := h2 in
          outer_loop (detect f) [(s11, g11); (s12, g12); (s13, g13); (s14, g14)]
            [(s21, g21); (s22, g22); (s23, g23); (s24, g24)] out))))))))
      end))
  end.

(** findStartIntersectionPoints, ssx.h:259-298. decompose is const. *)
Definition find_start (fuel : nat) (s1 s2 : nsurf) (out : ssx_out) : option (res ssx_out) :=
  lift (ns_decompose s1) (fun l1 => lift (ns_decompose s2) (fun l2 =>
  lift (mapM gauss_map l1) (fun g1 => lift (mapM gauss_map l2) (fun g2 =>
  outer_loop (detect fuel) (combine l1 g1) (combine l2 g2) out)))).
End Ssx.
