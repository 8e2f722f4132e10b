(** Planes in space. *)
From Coq Require Import List ZArith Reals.
From Verif Require Import Base ModelPlane.
Import ListNotations.
Open Scope R_scope.

(** a x + b y + c z + d at a point *)
Definition eval_eq (p : plane) (q : v3r) : R := p_a p * rx q + p_b p * ry q + p_c p * rz q + p_d p.
Definition on_plane (p : plane) (q : v3r) : Prop := eval_eq p q = 0.
Definition at_param (s e : v3r) (t : R) : v3r := RV (rx s + t * (rx e - rx s)) (ry s + t * (ry e - ry s)) (rz s + t * (rz e - rz s)).
Definition on_segment (s e q : v3r) : Prop := exists t, 0 <= t <= 1 /\ q = at_param s e t.
Definition on_ray (s d q : v3r) : Prop := exists t, 0 <= t /\ q = rvadd s (rvscale d t).
Definition on_line (s d q : v3r) : Prop := exists t, q = rvadd s (rvscale d t).
(** planes made by the constructors *)
Inductive built (fl : R -> R) : plane -> Prop :=
| built_default : built fl plane_default
| built_equation a b c d p : plane_of_equation a b c d = Ok p -> built fl p
| built_normal n p : plane_of_normal fl n = Ok p -> built fl p
| built_origin o n p : plane_of_origin_normal fl o n = Ok p -> built fl p
| built_points p0 p1 p2 p : plane_of_points fl p0 p1 p2 = Ok p -> built fl p.
(** normals not parallel *)
Definition not_parallel (p q : plane) : Prop := rvcross (RV (p_a p) (p_b p) (p_c p)) (RV (p_a q) (p_b q) (p_c q)) <> RV 0 0 0.
(** the normal of the plane through three points, and the height over it times its length *)
Definition tri_normal (p0 p1 p2 : v3r) : v3r := rvcross (rvsub p1 p0) (rvsub p2 p0).
Definition volume (p0 p1 p2 q : v3r) : R := rvdot (tri_normal p0 p1 p2) (rvsub q p0).
Definition coplanar (pts : list v3r) : Prop := exists a b c d, (a <> 0 \/ b <> 0 \/ c <> 0) /\ forall q, In q pts -> a * rx q + b * ry q + c * rz q + d = 0.
Definition orthonormal (x y : v3r) : Prop := rvdot x x = 1 /\ rvdot y y = 1 /\ rvdot x y = 0.
(** rounding to float keeps 24 bits *)
Definition float_like (fl : R -> R) : Prop := forall x, 1 <= x <= 2 ^ 120 -> Rabs (fl x - x) <= x / 2 ^ 24.
(** what the theorems assume of the rounding to float: relative error 2^-24, the
    numbers n / 2^k with at most 24 bits are kept, 2^24 + 1 rounds to even *)
Definition float_rounding (fl : R -> R) : Prop :=
  float_like fl /\ (forall (n : Z) (k : nat), (Z.abs n <= 2 ^ 24)%Z -> (k <= 100)%nat -> fl (IZR n / 2 ^ k) = IZR n / 2 ^ k) /\
  fl 16777217 = 16777216.
