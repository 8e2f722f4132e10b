(** Model of cmmcore/csx.h: curve-surface intersection by Newton's method and
    recursive subdivision, and of the tests of cmmcore/separability.h it calls. *)
From Coq Require Import List ZArith QArith Qcanon Bool.
From Verif Require Import Base ModelVec ModelAabb ModelNurbs ModelSurface ModelPolygon ModelGjk.
Import ListNotations.
Open Scope Qc_scope.

(** AABBTest, separability.h:21-25 *)
Definition aabb_test (pts1 pts2 : list vec3) : res bool :=
  b1 <- aabb_of_points pts1 ;; b2 <- aabb_of_points pts2 ;; Ok (negb (aabb_intersects b1 b2)).

(** centerProjectionToXY, numeric_utils.h:61-78 *)
Definition center_projection (origin point : vec3) : res vec2 :=
  if vz origin =? vz point then Ok (V2 (vx point) (vy point)) else
  t <- qdiv (- vz origin) (vz point - vz origin) ;;
  Ok (V2 (vx origin + t * (vx point - vx origin)) (vy origin + t * (vy point - vy origin))).

Section Spherical.
(** vec3::length, vec.h:411-419: through single precision; None is infinite *)
Variable len : vec3 -> option Qc.
(** vec3::unitize and unit, vec.h:420-437; dividing by infinity gives zeros *)
Definition vunit (v : vec3) : vec3 :=
  match len v with
  | None => V3 0 0 0
  | Some l => if (l <=? DBL_EPS) || (l - 1 <=? DBL_EPS) then v else V3 (vx v / l) (vy v / l) (vz v / l)
  end.
(** std::sort inside convex_hull2d, and the set of normals of SAT2D *)
Variable sort : (vec2 -> vec2 -> bool) -> list vec2 -> list vec2.
Variable keep : list vec2 -> vec2 -> bool.

(** the hull, or the first point when it is empty, separability.h:429-438. By
    then convex_hull2d has swapped its lowest point to the front. *)
Definition hull_or_first (poly : list vec2) : res (list vec2) :=
  h <- convex_hull2d sort poly ;;
  match h with
  | [] => k <- lowest_index poly ;; p <- get poly k ;; Ok [p]
  | _ => Ok h
  end.

(** SphericalCentralProjectionTest2, separability.h:397-452, and with
    origin (0, 0, 1) SphericalCentralProjectionTest, 295-352 *)
Definition spherical_test (origin : vec3) (pts1 pts2 : list vec3) : res bool :=
  poly1 <- mapM (fun p => center_projection origin (vunit p)) pts1 ;;
  poly2 <- mapM (fun p => center_projection origin (vunit p)) pts2 ;;
  h1 <- hull_or_first poly1 ;;
  h2 <- hull_or_first poly2 ;;
  sat2d keep h1 h2.
End Spherical.

(** get_control_points3d, nurbs.h:472-479; control_points_flat3d, 970-985 *)
Definition points3d (c : ncurve) : res (list vec3) := mapM to_vec3 (nc_cps c).
Definition flat3d (s : nsurf) : res (list vec3) := l <- flat_points s ;; mapM to_vec3 l.

(** the parameters (t, u, v) of a hit *)
Definition params := (Qc * Qc * Qc)%type.
(** CSXInt, csx.h:23-29: true is DEGENERATE *)
Definition csx_int := (bool * vec3 * params)%type.

(** sequencing for a recursion with fuel: None is out of fuel *)
Definition lift {A B} (r : res A) (k : A -> option (res B)) : option (res B) :=
  match r with Ok a => k a | Throw e => Some (Throw e) | UB => Some UB end.
Definition andthen {A B} (r : option (res A)) (k : A -> option (res B)) : option (res B) :=
  match r with None => None | Some r => lift r k end.

Section Csx.
(** vec3::length, vec.h:411-419: through single precision; None is infinite *)
Variable len : vec3 -> option Qc.
(** what newtonsMethod<3> returns for this curve and surface, csx.h:173-187: its
    equation is the squared distance, its start the middle of the intervals. Any
    answer is possible. *)
Variable newton : ncurve -> nsurf -> res params.
(** _is_degenerate, csx.h:208-214: from derivatives, any answer is possible *)
Variable degenerate : ncurve -> nsurf -> params -> res bool.
(** whether GJK puts the two sets of points further apart than the tolerance,
    csx.h:163-167; see [gjk_apart] *)
Variable apart : list vec3 -> list vec3 -> res bool.
(** SphericalCentralProjectionTest2; see [spherical_test] *)
Variable separable : vec3 -> list vec3 -> list vec3 -> res bool.
(** the members tolerance and ptol, csx.h:46-47 *)
Variables tol ptol : Qc.

(** |x - a| < ptol *)
Definition near_to (x a : Qc) : bool := Qcabs (x - a) <? ptol.
(** csx.h:67-69 *)
Definition short (iv : Qc * Qc) : bool := Qcabs (snd iv - fst iv) <? ptol.
(** csx.h:83-84, 113-114 *)
Definition at_border (s : nsurf) (u v : Qc) : bool :=
  near_to u (fst (ns_iu s)) || near_to u (snd (ns_iu s)) || near_to v (fst (ns_iv s)) || near_to v (snd (ns_iv s)).

(** _no_new_intersections, csx.h:154-170 *)
Definition no_new (c : ncurve) (s : nsurf) : res bool :=
  e1 <- points3d c ;; e2 <- flat3d s ;;
  b <- aabb_test e1 e2 ;;
  if b then Ok true else apart e1 e2.

(** _is_valid_parameter, csx.h:201-206 *)
Definition valid_parameter (p : params) (c : ncurve) (s : nsurf) : bool :=
  let '(t, u, v) := p in
  (fst (nc_interval c) <=? t) && (t <=? snd (nc_interval c)) &&
  (fst (ns_iu s) <=? u) && (u <=? snd (ns_iu s)) && (fst (ns_iv s) <=? v) && (v <=? snd (ns_iv s)).

(** _find_new_intersection, csx.h:172-199 *)
Definition find_new (c : ncurve) (s : nsurf) : res (option (vec3 * params)) :=
  p <- newton c s ;;
  if valid_parameter p c s then
    let '(t, u, v) := p in
    a <- evaluate c t ;; b <- ns_evaluate s u v ;;
    match len (v3sub a b) with
    | Some l => Ok (if l <=? tol then Some (a, p) else None)
    | None => Ok None
    end
  else Ok None.

(** the loop over the four patches, csx.h:125-150; [rec] is the recursive call.
    Line 132 leaves the body before the second half of the curve is looked at. *)
Fixpoint csx_loop (rec : ncurve -> nsurf -> list csx_int -> option (res (list csx_int)))
  (point : vec3) (c1 c2 : ncurve) (patches : list nsurf) (hits : list csx_int) : option (res (list csx_int)) :=
  match patches with
  | [] => Some (Ok hits)
  | s :: rest =>
      lift (points3d c1) (fun curve_points =>
      lift (flat3d s) (fun surface_points =>
      lift (separable point curve_points surface_points) (fun b =>
        if b then csx_loop rec point c1 c2 rest hits else
        andthen (rec c1 s hits) (fun hits =>
        lift (points3d c2) (fun curve_points2 =>
        lift (separable point curve_points2 surface_points) (fun b =>
          if b then csx_loop rec point c1 c2 rest hits else
          andthen (rec c2 s hits) (fun hits => csx_loop rec point c1 c2 rest hits)))))))
  end.

(** _curve_surface_intersect, csx.h:64-152. [None]: the fuel does not suffice.
    The vector of hits is passed in and out; after an exception its contents are
    not modelled. *)
Fixpoint csx_rec (fuel : nat) (c : ncurve) (s : nsurf) (hits : list csx_int) : option (res (list csx_int)) :=
  match fuel with
  | O => None
  | S f =>
      if short (nc_interval c) || short (ns_iu s) || short (ns_iv s) then Some (Ok hits) else
      lift (no_new c s) (fun none =>
      if none then Some (Ok hits) else
      lift (find_new c s) (fun found =>
      let u := (fst (ns_iu s) + snd (ns_iu s)) * qc 1 2 in
      let v := (fst (ns_iv s) + snd (ns_iv s)) * qc 1 2 in
      if at_border s u v then Some (Ok hits) else
      match found with
      | None =>
          lift (nc_split c (qc 1 2 * (fst (nc_interval c) + snd (nc_interval c))) false) (fun cc => let '(c1, c2) := cc in
          lift (ns_subdivide_at s u v) (fun ss => let '(s1, s2, s3, s4) := ss in
          andthen (csx_rec f c1 s1 hits) (fun hits => andthen (csx_rec f c1 s2 hits) (fun hits =>
          andthen (csx_rec f c1 s3 hits) (fun hits => andthen (csx_rec f c1 s4 hits) (fun hits =>
          andthen (csx_rec f c2 s1 hits) (fun hits => andthen (csx_rec f c2 s2 hits) (fun hits =>
          andthen (csx_rec f c2 s3 hits) (fun hits => csx_rec f c2 s4 hits)))))))))
      | Some (point, (t, u, v)) =>
          lift (degenerate c s (t, u, v)) (fun d =>
          let hits := hits ++ [(d, point, (t, u, v))] in
          if at_border s u v then Some (Ok hits) else
          lift (nc_split c t false) (fun cc => let '(c1, c2) := cc in
          lift (ns_subdivide_at s u v) (fun ss => let '(s1, s2, s3, s4) := ss in
          csx_loop (csx_rec f) point c1 c2 [s1; s2; s3; s4] hits)))
      end))
  end.
End Csx.

(** the literal 1e-5, and maxIterations of gjk.h:211 *)
Definition lit_1em5 : Qc := qc 5902958103587057 590295810358705651712.
Definition GJK_ITERATIONS : nat := 25.
(** the GJK call of _no_new_intersections, csx.h:163-167, with the default number
    of iterations; the point starts as the zero vector *)
Definition gjk_apart (len : vec3 -> option Qc) (tol : Qc) (e1 e2 : list vec3) : res bool :=
  r <- gjk e1 e2 [] (V3 0 0 0) lit_1em5 GJK_ITERATIONS ;;
  cpt <- closest r ;;
  Ok (match len cpt with Some l => tol <? l | None => true end).

(** computePtol, csx.h:216-220, and csx, 222-238. [curve_length] is
    NURBSCurve::length, an integral. *)
Definition compute_ptol (curve_length : ncurve -> res Qc) (c : ncurve) (tol : Qc) : res Qc :=
  l <- curve_length c ;; qdiv (tol * (snd (nc_interval c) - fst (nc_interval c))) l.
Definition csx (len : vec3 -> option Qc) (newton : ncurve -> nsurf -> res params) (degenerate : ncurve -> nsurf -> params -> res bool)
  (apart : list vec3 -> list vec3 -> res bool) (separable : vec3 -> list vec3 -> list vec3 -> res bool)
  (curve_length : ncurve -> res Qc) (fuel : nat) (c : ncurve) (s : nsurf) (tol : Qc) : option (res (list csx_int)) :=
  lift (compute_ptol curve_length c tol) (fun ptol => csx_rec len newton degenerate apart separable tol ptol fuel c s []).
