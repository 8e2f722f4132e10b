(** Convex hulls of points and the class GaussMap. *)
From Coq Require Import List ZArith QArith Qcanon.
From Verif Require Import Base ModelVec ModelPolygon ModelNurbs ModelSurface ModelSsx ModelHull3
  SpecNurbs SpecSurface SpecPolygon SpecGjk SpecMonomial SpecSsx SpecHull3 ProofHull3 WitnessPolygon WitnessSsx WitnessHull3.
Import ListNotations.
Local Open Scope Qc_scope.

(** C212: false; four points are always taken for coplanar, and the apex over a
    triangle is dropped *)
Theorem C212_convex_hull_refuted :
  exists pts p, In p pts /\ forall fl h3, exists hull, convex_hull3 fl isort h3 pts [] = Ok (FLAT, hull) /\ ~ in_hull3 hull p.
Proof.
  exists apex_points, (p3 1 1 1). split; [right; right; right; left; reflexivity|]. intros fl h3. exists [p3 0 0 0; p3 3 0 0; p3 0 3 0]. exact (apex_lost fl h3).
Qed.
Print Assumptions C212_convex_hull_refuted.

(** a square on a vertical plane has an empty hull, and a horizontal one is
    reported as having volume *)
Theorem C212_vertical_square_refuted :
  forall fl h3, convex_hull3 fl isort h3 [p3 0 0 0; p3 0 1 0; p3 0 1 1; p3 0 0 1] [] = Ok (VOLUME, []).
Proof. exact wall_lost. Qed.
Print Assumptions C212_vertical_square_refuted.

Theorem C212_flat_square_refuted :
  forall fl h3, convex_hull3 fl isort h3 [p3 0 0 0; p3 1 0 0; p3 1 1 0; p3 0 1 0] [] = Ok (VOLUME, [p3 0 0 0; p3 1 0 0; p3 1 1 0; p3 0 1 0]).
Proof. exact tile_volume. Qed.
Print Assumptions C212_flat_square_refuted.

(** at most three points *)
Theorem C212_few_points_partial :
  forall fl sort h3 pts hull, pts <> [] -> (length pts <= 3)%nat ->
  convex_hull3 fl sort h3 pts hull = Ok (match length pts with 1%nat => POINT | 2%nat => LINE | _ => FLAT end, pts).
Proof. exact hull3_few. Qed.
Print Assumptions C212_few_points_partial.

(** with four points a target that is not empty keeps what it held, and the kind
    counts that too *)
Theorem C212_target_kept_partial :
  forall fl sort h3 pts old k h, length pts = 4%nat -> convex_hull3 fl sort h3 pts old = Ok (k, h) ->
  exists k' h', convex_hull3 fl sort h3 pts [] = Ok (k', h') /\ h = old ++ h' /\
    k = match (length old + length h')%nat with 1%nat => POINT | 2%nat => LINE | 3%nat => FLAT | _ => VOLUME end.
Proof. exact hull3_old_four. Qed.
Print Assumptions C212_target_kept_partial.

(** points on a plane that is not vertical, seen from above clearly collinear or not,
    if quickhull is right, whichever way the test for coplanarity goes *)
Theorem C212_over_plane_partial :
  forall fl sort h3 pts, sorts sort -> hull_finder h3 -> pts <> [] ->
  clear_position lit_1em9 (map (fun p => V2 (vx p) (vy p)) pts) -> ((3 < length pts)%nat -> not_collinear (map (fun p => V2 (vx p) (vy p)) pts)) -> over_plane pts ->
  exists k hull, convex_hull3 fl sort h3 pts [] = Ok (k, hull) /\ incl hull pts /\ forall p, In p pts -> in_hull3 hull p.
Proof. exact hull3_flat. Qed.
Print Assumptions C212_over_plane_partial.

(** points in the plane *)
Theorem C212_planar_hull_partial :
  forall sort pts hull, sorts sort -> (3 <= length pts)%nat -> clear_position lit_1em9 pts -> not_collinear pts ->
  exists h, convex_hull2 sort pts hull = Ok (FLAT, h) /\ incl h pts /\ forall p, In p pts -> in_hull h p.
Proof. exact hull2_kinds. Qed.
Print Assumptions C212_planar_hull_partial.

Theorem C212_planar_few_partial :
  forall sort pts hull, (length pts < 3)%nat ->
  convex_hull2 sort pts hull = Ok (match length pts with 0%nat => EMPTY | 1%nat => POINT | _ => LINE end, match pts with [] => hull | _ => pts end).
Proof. exact hull2_few. Qed.
Print Assumptions C212_planar_few_partial.

Example C212_case : sorts (@isort vec2) /\ hull_finder everything /\ clear_position lit_1em9 (map (fun p => V2 (vx p) (vy p)) ramp_points) /\ not_collinear (map (fun p => V2 (vx p) (vy p)) ramp_points) /\ over_plane ramp_points /\
  clear_position lit_1em9 grid /\ not_collinear grid.
Proof. exact (conj isort_sorts (conj everything_finder (conj (proj1 ramp_good) (conj (proj1 (proj2 ramp_good)) (conj (proj2 (proj2 ramp_good)) (conj grid_clear grid_solid)))))). Qed.

(** C215 *)
Theorem C215_gauss_class_agrees :
  forall sph s1 s2 g1 g2, gm_build s1 = Ok g1 -> gm_build s2 = Ok g2 ->
  gauss_map s1 = Ok (gm_surf g1) /\ gauss_map s2 = Ok (gm_surf g2) /\ gm_separable sph g1 g2 = gauss_separable sph (gm_surf g1) (gm_surf g2).
Proof. exact gm_separable_same. Qed.
Print Assumptions C215_gauss_class_agrees.

(** C216 *)
Theorem C216_gauss_subdivide :
  forall s n m, (1 <= n <= 4)%nat -> (1 <= m <= 4)%nat -> good_surf s n m -> unit_surf s -> ns_du s = n -> ns_dv s = m ->
  ns_ku s = repeat 0 (S n) ++ repeat 1 (S n) -> ns_kv s = repeat 0 (S m) ++ repeat 1 (S m) ->
  exists g0 P du dv, gm_build s = Ok g0 /\ (forall u v, unit_square u v -> ns_evaluate s u v = Ok (P u v)) /\
    (forall u v, has_derivative3 (fun t => P t v) u (du u v)) /\ (forall u v, has_derivative3 (fun t => P u t) v (dv u v)) /\
    forall g r, descendant g0 g r ->
      gm_inv g = map (fun p => V3 (- vx p) (- vy p) (- vz p)) (gm_pts g) /\
      (forall u v, in_rect r u v -> in_hull3 (gm_pts g) (v3cross (du u v) (dv u v))) /\
      (gm_subdivide g = Throw EInvalidArgument \/ exists parts, gm_subdivide g = Ok parts).
Proof. exact gm_top. Qed.
Print Assumptions C216_gauss_subdivide.

Example C216_case : good_surf rise 1 1 /\ unit_surf rise /\ exists g0 parts, gm_build rise = Ok g0 /\ gm_subdivide g0 = Ok parts.
Proof. exact (conj (proj1 gauss_case) (conj (proj1 (proj2 gauss_case)) rise_descends)). Qed.
