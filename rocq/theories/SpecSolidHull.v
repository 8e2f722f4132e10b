(** Specification vocabulary for the hull of a solid set of points. *)
From Coq Require Import List QArith Qcanon Reals Qreals.
From Verif Require Import Base ModelVec ModelPlane ModelQuickhull.
Import ListNotations.

(** the same point with real coordinates *)
Definition as_real (p : vec3) : v3r := RV (Q2R (this (vx p))) (Q2R (this (vy p))) (Q2R (this (vz p))).
(** [h3] is quickhull, on rational points, with its unset member false *)
Definition runs_quickhull (h3 : list vec3 -> list vec3 -> res (list vec3)) : Prop :=
  forall pts hull, convex_hull3d false (map as_real pts) (map as_real hull) =
    match h3 pts hull with Ok h => Ok (map as_real h) | Throw e => Throw e | UB => UB end.
