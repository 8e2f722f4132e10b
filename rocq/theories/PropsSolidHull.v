(** The hull of a solid set of points by convex_hull. *)
From Coq Require Import List ZArith QArith Qcanon Reals.
From Verif Require Import Base ModelVec ModelPlane ModelPolygon ModelHull3 ModelQuickhull.
From Verif Require Import SpecPlane SpecQuickhull SpecSolidHull ProofHull3 ProofSolidHull WitnessPlane WitnessSolidHull.
Import ListNotations.
Local Open Scope R_scope.

(** C212: points on a grid, one of them after the fourth off the plane of the first
    three; three products of coordinates of the first three points are floats. The
    result is called VOLUME, every point is in its hull and no extreme point is
    missing. *)
Theorem C212_solid_partial :
  forall fl sort h3 k M p0 p1 p2 p3 rest q, let pts := p0 :: p1 :: p2 :: p3 :: rest in
  runs_quickhull h3 -> (0 < k)%Z -> 1 <= M -> 16 * IZR k ^ 3 * M ^ 2 < 2 ^ 52 -> (forall p, In p pts -> on_grid k M (as_real p)) ->
  (let a := as_real p0 in let b := as_real p1 in let c := as_real p2 in
   fl (ry a * rz b) = ry a * rz b /\ fl (ry b * rz c) = ry b * rz c /\ fl (ry c * rz a) = ry c * rz a) ->
  In q rest -> vol (as_real p0) (as_real p1) (as_real p2) (as_real q) <> 0 ->
  exists hull, convex_hull3 fl sort h3 pts [] = Ok (VOLUME, hull) /\ NoDup hull /\ incl hull pts /\
    (forall p, In p pts -> in_hullr (map as_real hull) (as_real p)) /\ (forall p, In p pts -> extreme (map as_real pts) (as_real p) -> In p hull).
Proof. exact solid_hull. Qed.
Print Assumptions C212_solid_partial.

Example C212_solid_case : runs_quickhull rational_quickhull /\ block = p3 0 0 0 :: p3 4 0 0 :: p3 0 4 0 :: p3 1 1 1 :: [p3 0 0 4; p3 2 0 0] /\
  (forall p, In p block -> on_grid 1 4 (as_real p)) /\ In (p3 0 0 4) [p3 0 0 4; p3 2 0 0] /\
  vol (as_real (p3 0 0 0)) (as_real (p3 4 0 0)) (as_real (p3 0 4 0)) (as_real (p3 0 0 4)) <> 0 /\ 16 * IZR 1 ^ 3 * 4 ^ 2 < 2 ^ 52.
Proof. exact (conj rational_runs (conj eq_refl block_ok)). Qed.
Example C212_solid_floats : let a := as_real (p3 0 0 0) in let b := as_real (p3 4 0 0) in let c := as_real (p3 0 4 0) in
   sample_fl (ry a * rz b) = ry a * rz b /\ sample_fl (ry b * rz c) = ry b * rz c /\ sample_fl (ry c * rz a) = ry c * rz a.
Proof. exact (block_fl _ sample_rounding). Qed.
