(** Specification vocabulary for convex hulls in space and the class GaussMap. *)
From Coq Require Import List ZArith QArith Qcanon.
From Verif Require Import Base ModelVec ModelNurbs ModelSurface ModelHull3 SpecNurbs SpecSurface SpecGjk SpecSsx.
Import ListNotations.
Local Open Scope Qc_scope.

(** what is assumed of quickhull: some of the points, and every point is inside
    their convex hull *)
Definition hull_finder (h3 : list vec3 -> list vec3 -> res (list vec3)) : Prop :=
  forall pts, exists h, h3 pts [] = Ok h /\ incl h pts /\ forall p, In p pts -> in_hull3 h p.
(** the points lie on one plane that is not vertical *)
Definition over_plane (pts : list vec3) : Prop :=
  exists a b c, forall p, In p pts -> vz p = a * vx p + b * vy p + c.

(** one of the four parts of a map over a rectangle, and its quarter of the rectangle *)
Definition quarter (r : rect) (parts : gmap * gmap * gmap * gmap) (x : gmap) (r' : rect) : Prop :=
  let '(a, b, c, d) := parts in
  let um := (ulo r + uhi r) * qc 1 2 in let vm := (vlo r + vhi r) * qc 1 2 in
  (x = a /\ r' = Rect (ulo r) um (vlo r) vm) \/ (x = b /\ r' = Rect (ulo r) um vm (vhi r)) \/
  (x = c /\ r' = Rect um (uhi r) (vlo r) vm) \/ (x = d /\ r' = Rect um (uhi r) vm (vhi r)).
(** what repeated subdivision of [g0] leads to *)
Inductive descendant (g0 : gmap) : gmap -> rect -> Prop :=
| d_self : descendant g0 g0 (Rect 0 1 0 1)
| d_part g r parts x r' : descendant g0 g r -> gm_subdivide g = Ok parts -> quarter r parts x r' -> descendant g0 x r'.
