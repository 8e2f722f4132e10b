(** Segments, columns, normals of polygons, directions. *)
From Coq Require Import List ZArith Reals Permutation Sorted.
From Verif Require Import Base ModelPlane ModelVecOps SpecPlane SpecVecOps.
Import ListNotations.
Local Open Scope R_scope.

(** the distance of two points *)
Definition distance (a b : v3r) : R := norm (rvsub a b).
Definition increasing (f : R -> R) : Prop := forall x y, x <= y -> f x <= f y.
(** the lines through p1 p2 and q1 q2 have different directions *)
Definition crossing (p1 p2 q1 q2 : v3r) : Prop := rvcross (rvsub p2 p1) (rvsub q2 q1) <> RV 0 0 0.

(** [c] is column [k] of [m]: one entry for each row *)
Definition is_column {A} (m : list (list A)) (k : nat) (c : list A) : Prop := Forall2 (fun row x => nth_error row k = Some x) m c.

(** consecutive vertices, the last one followed by the first *)
Definition edge (P : list v2r) (i : nat) (p q : v2r) : Prop :=
  nth_error P i = Some p /\ nth_error P (if Nat.eqb (i + 1) (length P) then 0 else i + 1) = Some q.
Definition no_zero_edge (P : list v2r) : Prop := forall i p q, edge P i p q -> p <> q.
(** all of the polygon on the left of its edges *)
Definition counterclockwise (P : list v2r) : Prop :=
  forall i p q x, edge P i p q -> In x P -> 0 <= (r2x q - r2x p) * (r2y x - r2y p) - (r2y q - r2y p) * (r2x x - r2x p).
Definition perpendicular (n p q : v2r) : Prop := r2x n * (r2x q - r2x p) + r2y n * (r2y q - r2y p) = 0.
Definition outward (n p x : v2r) : Prop := r2x n * (r2x x - r2x p) + r2y n * (r2y x - r2y p) <= 0.
Definition close2 (a b : v2r) : Prop := Rabs (r2x a - r2x b) < R_EPS /\ Rabs (r2y a - r2y b) < R_EPS.
(** no two of them along the same line *)
Definition distinct_lines (s : list v2r) : Prop := ~ In (RV2 0 0) s /\ ForallOrdPairs (fun a b => ~ parallel2 a b) s.

(** [n] is a normal of an edge of the polygon *)
Definition edge_gives (normalize : bool) (P : list v2r) (n : v2r) : Prop :=
  exists i p q, edge P i p q /\ perpendicular n p q /\ n <> RV2 0 0 /\ (normalize = true -> r2len n = 1).
(** the line of the normals of the edge is there, or a vector equal up to the
    tolerance of operator== *)
Definition edge_covered (s : list v2r) (p q : v2r) : Prop :=
  exists n, In n s /\ (perpendicular n p q \/ close2 n (RV2 (r2y q - r2y p) (r2x p - r2x q))).

(** what std::sort does *)
Definition sorts_reals (sort : list R -> list R) : Prop :=
  forall l, Permutation (sort l) l /\ Sorted Rle (sort l).
Definition same_direction (p q : v3r) : Prop := exists k, 0 < k /\ q = rvscale p k.
