(** Specification vocabulary for the convex hull of points in space. *)
From Coq Require Import List ZArith Reals.
From Verif Require Import ModelPlane.
Import ListNotations.
Local Open Scope R_scope.

(** the sum of w * p over the pairs of the lists *)
Fixpoint weighted (ws : list R) (l : list v3r) : v3r :=
  match ws, l with w :: ws', p :: l' => rvadd (RV (w * rx p) (w * ry p) (w * rz p)) (weighted ws' l') | _, _ => RV 0 0 0 end.
(** [p] is in the convex hull of the points [l] *)
Definition in_hullr (l : list v3r) (p : v3r) : Prop :=
  exists ws, length ws = length l /\ (forall w, In w ws -> 0 <= w) /\ fold_right Rplus 0 ws = 1 /\ weighted ws l = p.
(** six times the oriented volume of a tetrahedron *)
Definition vol (a b c d : v3r) : R := rvdot (rvcross (rvsub b a) (rvsub c a)) (rvsub d a).
(** no four of the points lie on a plane *)
Definition no_four_coplanar (pts : list v3r) : Prop :=
  forall i j k l a b c d, NoDup [i; j; k; l] -> nth_error pts i = Some a -> nth_error pts j = Some b -> nth_error pts k = Some c -> nth_error pts l = Some d ->
  vol a b c d <> 0.
(** the coordinates are multiples of 1/k, not larger than M in absolute value *)
Definition on_grid (k : Z) (M : R) (p : v3r) : Prop :=
  exists x y z : Z, p = RV (IZR x / IZR k) (IZR y / IZR k) (IZR z / IZR k) /\ Rabs (rx p) <= M /\ Rabs (ry p) <= M /\ Rabs (rz p) <= M.
(** [p] is one of the points and not in the convex hull of the others *)
Definition extreme (pts : list v3r) (p : v3r) : Prop := exists l1 l2, pts = l1 ++ p :: l2 /\ ~ in_hullr (l1 ++ l2) p.
(** all points lie on one plane *)
Definition on_one_plane (pts : list v3r) : Prop := exists n h, n <> RV 0 0 0 /\ forall p, In p pts -> rvdot n p = h.
(** [p] is one of the points, and all of them are on one side of a plane through [p] *)
Definition on_boundary (pts : list v3r) (p : v3r) : Prop := In p pts /\ exists n, n <> RV 0 0 0 /\ forall q, In q pts -> rvdot n q <= rvdot n p.
