(** Vocabulary for statements about surface-surface intersection. *)
From Coq Require Import List ZArith QArith Qcanon.
From Verif Require Import Base ModelVec ModelAabb ModelNurbs ModelSurface ModelBoundary ModelSsx
  SpecNurbs SpecCurve SpecSurface SpecCcx SpecGjk SpecCsx SpecBoundary SpecSurface2.
Import ListNotations.
Open Scope Qc_scope.

(** clamped in both directions, positive weights, intervals up to date, inner
    knots of multiplicity at most the degree, and no middle of an interval that
    halving leads to within 1e-12 of an inner knot without hitting it *)
Definition halvable (s : nsurf) : Prop := cuttable_surf (fun _ => False) (fun _ => False) s.

(** all coordinates differ by at most [tol] *)
Definition close (tol : Qc) (a b : vec3) : Prop :=
  Qcabs (vx a - vx b) <= tol /\ Qcabs (vy a - vy b) <= tol /\ Qcabs (vz a - vz b) <= tol.

(** what a reported point says: its parameters are parameters of the surfaces, and
    the surfaces' points there are both close to the reported position *)
Definition true_point (tol : Qc) (s1 s2 : nsurf) (p : ssx_point) : Prop :=
  within (ns_iu s1) (fst (sp_uv1 p)) /\ within (ns_iv s1) (snd (sp_uv1 p)) /\
  within (ns_iu s2) (fst (sp_uv2 p)) /\ within (ns_iv s2) (snd (sp_uv2 p)) /\
  exists a b, ns_evaluate s1 (fst (sp_uv1 p)) (snd (sp_uv1 p)) = Ok a /\ close tol a (sp_xyz p) /\
              ns_evaluate s2 (fst (sp_uv2 p)) (snd (sp_uv2 p)) = Ok b /\ close tol b (sp_xyz p).

(** a rectangle of parameters *)
Record rect := Rect { ulo : Qc; uhi : Qc; vlo : Qc; vhi : Qc }.
Definition in_rect (r : rect) (u v : Qc) : Prop := ulo r <= u /\ u <= uhi r /\ vlo r <= v /\ v <= vhi r.
Definition rect_of (s : nsurf) : rect := Rect (fst (ns_iu s)) (snd (ns_iu s)) (fst (ns_iv s)) (snd (ns_iv s)).
Definition rect_inside (r r' : rect) : Prop := ulo r' <= ulo r /\ uhi r <= uhi r' /\ vlo r' <= vlo r /\ vhi r <= vhi r'.
(** [q] is the part of [s] over a rectangle inside the domain of [s] *)
Definition part_over (q s : nsurf) (r : rect) : Prop :=
  patch_of q s (ulo r) (uhi r) (vlo r) (vhi r) /\ rect_of q = r /\ rect_inside r (rect_of s).

(** the end of a patch: a hit of a boundary curve of a part of one surface with a
    part of the other *)
Definition boundary_hit (csx : ncurve -> nsurf -> Qc -> res (list (vec3 * (Qc * Qc * Qc)))) (tol : Qc) (q1 q2 : nsurf) (p : ipoint) : Prop :=
  recorded csx tol q1 q2 true p \/ recorded csx tol q2 q1 false p.
Definition true_patch (csx : ncurve -> nsurf -> Qc -> res (list (vec3 * (Qc * Qc * Qc)))) (tol : Qc) (s1 s2 : nsurf) (p : ipoint * ipoint) : Prop :=
  exists q1 q2 r1 r2, part_over q1 s1 r1 /\ part_over q2 s2 r2 /\ boundary_hit csx tol q1 q2 (fst p) /\ boundary_hit csx tol q1 q2 (snd p).

(** the surfaces meet there *)
Definition meet_at (s1 s2 : nsurf) (u1 v1 u2 v2 : Qc) (p : vec3) : Prop :=
  in_rect (rect_of s1) u1 v1 /\ in_rect (rect_of s2) u2 v2 /\ ns_evaluate s1 u1 v1 = Ok p /\ ns_evaluate s2 u2 v2 = Ok p.

(** the bounding boxes of the control points have an overlap of volume below the
    tolerance or with a side not above it *)
Definition thin_overlap (tol : Qc) (q1 q2 : nsurf) : Prop :=
  exists b1 b2 b, ns_bbox_of q1 = Ok b1 /\ ns_bbox_of q2 = Ok b2 /\ aabb_intersection b1 b2 = Some b /\
    let dx := vx (bmax b) - vx (bmin b) in let dy := vy (bmax b) - vy (bmin b) in let dz := vz (bmax b) - vz (bmin b) in
    dx * dy * dz < tol \/ dx <= tol \/ dy <= tol \/ dz <= tol.

(** what became of the meeting at p = s1(u1, v1) = s2(u2, v2): parts [q1] and [q2]
    with these parameters were reported as one point, or their boundary points were
    searched for and, if two were found, reported as a patch, or they were dropped
    because their boxes overlap in a thin box *)
Definition accounted (csx : ncurve -> nsurf -> Qc -> res (list (vec3 * (Qc * Qc * Qc)))) (tol : Qc) (s1 s2 : nsurf) (out : ssx_out)
  (u1 v1 u2 v2 : Qc) (p : vec3) : Prop :=
  exists q1 q2 r1 r2, part_over q1 s1 r1 /\ part_over q2 s2 r2 /\ in_rect r1 u1 v1 /\ in_rect r2 u2 v2 /\
  ((exists x, In x (so_points out) /\ in_rect r1 (fst (sp_uv1 x)) (snd (sp_uv1 x)) /\ in_rect r2 (fst (sp_uv2 x)) (snd (sp_uv2 x)) /\ close tol p (sp_xyz x)) \/
   (exists ixs, find_boundary_intersections csx q1 q2 [] tol = Ok ixs /\
      (length ixs < 2 \/ exists a b l, ixs = a :: l ++ [b] /\ In (a, b) (so_patches out))%nat) \/
   thin_overlap tol q1 q2).

(** [out'] has everything [out] has, and what was added is as described *)
Definition extends (P : ipoint * ipoint -> Prop) (Q : ssx_point -> Prop) (out out' : ssx_out) : Prop :=
  exists new_patches new_points, so_patches out' = so_patches out ++ new_patches /\ so_points out' = so_points out ++ new_points /\
    Forall P new_patches /\ Forall Q new_points.

(** a test that calls sets apart only when their hulls do not meet *)
Definition sound_apart (apart : list vec3 -> list vec3 -> res bool) : Prop := forall A B, apart A B = Ok true -> ~ hulls_meet3 A B.
(** a curve-surface intersection that returns points with hash keys *)
Definition answers_curves (csx : ncurve -> nsurf -> Qc -> res (list (vec3 * (Qc * Qc * Qc)))) (tol : Qc) : Prop :=
  forall c s, exists hits, csx c s tol = Ok hits /\ forall h, In h hits -> hashable (fst h).

(** clamped in both directions, positive weights, intervals up to date, inner
    knots more than 1e-7 apart with multiplicities between 1 and the degree *)
Definition decomposable (s : nsurf) : Prop :=
  exists n m a mu b c mv d, good_surf s n m /\ positive_surf s /\ intervals_current s /\ (1 <= ns_du s)%nat /\ (1 <= ns_dv s)%nat /\ knots_are (ns_ku s) (ns_du s) a mu b /\ knots_are (ns_kv s) (ns_dv s) c mv d.

(** a test on the sphere that answers yes only when no direction to a point in the
    hull of one set is a direction to a point in the hull of the other *)
Definition sound_sphere (sph : list vec3 -> list vec3 -> res bool) : Prop :=
  forall A B, sph A B = Ok true -> forall p q k, in_hull3 A p -> in_hull3 B q -> 0 < k -> p <> v3scale q k.
(** one is a multiple of the other, in the same or in the opposite direction *)
Definition parallel (a b : vec3) : Prop := exists k, k <> 0 /\ a = v3scale b k.

(** a convex hull whose points have every point of the given hull in their hull *)
Definition covers (hull : list vec3 -> res (list vec3)) : Prop := forall P H p, hull P = Ok H -> in_hull3 P p -> in_hull3 H p.
Definition unit_square (u v : Qc) : Prop := 0 <= u /\ u <= 1 /\ 0 <= v /\ v <= 1.
