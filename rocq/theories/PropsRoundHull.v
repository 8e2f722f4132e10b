(** The planar convex hull in doubles: property C240. *)
From Coq Require Import List ZArith QArith Qcanon Permutation.
From Verif Require Import Base ModelVec ModelPolygon ModelRound ModelRoundHull SpecPolygon SpecRound SpecRoundHull ProofRoundHull WitnessPolygon WitnessRoundHull.
Import ListNotations.
Open Scope Qc_scope.

(** C240: three corners with whole coordinates below 2^29 have an empty hull *)
Theorem C240_hull_refuted :
  exists fl P R, in_doubles fl /\ clear_position lit_1em9 P /\ not_collinear P /\ (forall p, In p P -> on_grid 0 29 p) /\
    convex_hull2d isort P = Ok R /\ convex_ccw R /\ fconvex_hull2d fl isort P = Ok [].
Proof. exact sliver_lost. Qed.
Print Assumptions C240_hull_refuted.

(** missing: coordinates that are not multiples of 2^e, or more than 2^25 steps away. For
    the others the hull is right, with fused products and without *)
Theorem C240_hull_partial :
  forall fl e sort P, in_doubles fl -> (-14 <= e <= 480)%Z -> (forall p, In p P -> on_grid e 25 p) -> sorts sort -> (3 <= length P)%nat -> not_collinear P ->
  exists R, fconvex_hull2d fl sort P = Ok R /\ convex_ccw R /\ incl R P /\ forall p, In p P -> in_hull R p.
Proof. exact doubles_hull. Qed.
Print Assumptions C240_hull_partial.

(** C240: for every rounding the result consists of points given *)
Theorem C240_vertices :
  forall fl sort P R, (forall cmp l, Permutation (sort cmp l) l) -> fconvex_hull2d fl sort P = Ok R -> incl R P.
Proof. exact fhull_vertices. Qed.
Print Assumptions C240_vertices.

(** without rounding the definitions are those of C114 *)
Theorem C240_no_rounding :
  forall sort P, (forall c c' l, (forall a b, c a b = c' a b) -> sort c l = sort c' l) -> fconvex_hull2d (fun _ => Some) sort P = convex_hull2d sort P.
Proof. exact unrounded. Qed.
Print Assumptions C240_no_rounding.

Example C240_case : in_doubles never_fused /\ in_doubles always_fused /\ (forall p, In p grid -> on_grid 0 25 p) /\ sorts (@isort vec2) /\ not_collinear grid.
Proof. exact grid_case. Qed.
Example C240_value : fconvex_hull2d never_fused isort grid = Ok [vi 0 0; vi 2 0; vi 2 2; vi 0 2].
Proof. vm_compute. reflexivity. Qed.
Example C240_sorts : (forall cmp l, Permutation (@isort vec2 cmp l) l) /\ forall c c' (l : list vec2), (forall a b, c a b = c' a b) -> isort c l = isort c' l.
Proof. exact (conj isort_perm isort_ext). Qed.
