(** Vector algebra. *)
From Coq Require Import List ZArith Reals.
From Verif Require Import Base ModelPlane ModelVecOps.
Import ListNotations.
Open Scope R_scope.

(** Euclidean length *)
Definition norm (p : v3r) : R := sqrt (rx p * rx p + ry p * ry p + rz p * rz p).
(** the point at distance r, polar angle theta from the z axis and azimuth phi *)
Definition polar_point (r theta phi : R) (p : v3r) : Prop :=
  rx p = r * sin theta * cos phi /\ ry p = r * sin theta * sin phi /\ rz p = r * cos theta.
Definition is_multiple (p q : v3r) : Prop := exists k, p = RV (rx q * k) (ry q * k) (rz q * k).
(** one of the two is a multiple of the other *)
Definition parallel2 (a b : v2r) : Prop := exists j k, (j <> 0 \/ k <> 0) /\ j * r2x a = k * r2x b /\ j * r2y a = k * r2y b.
Definition parallel3 (a b : v3r) : Prop := exists j k, (j <> 0 \/ k <> 0) /\ rvscale a j = rvscale b k.
