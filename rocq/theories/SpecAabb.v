(** Specification vocabulary for boxes: a box is read as the set of points it
    contains. *)
From Coq Require Import List ZArith QArith Qcanon.
From Verif Require Import Base ModelVec ModelAabb.
Open Scope Qc_scope.

Definition inside (b : aabb) (p : vec3) : Prop :=
  forall ax, coord (bmin b) ax <= coord p ax /\ coord p ax <= coord (bmax b) ax.

(** Not inverted on any axis. *)
Definition proper (b : aabb) : Prop := forall ax, coord (bmin b) ax <= coord (bmax b) ax.

Definition subbox (a b : aabb) : Prop := forall p, inside a p -> inside b p.

(** Representable as finite doubles. *)
Definition finite_point (p : vec3) : Prop := forall ax, DBL_LOWEST <= coord p ax /\ coord p ax <= DBL_MAX.
Definition finite_box (b : aabb) : Prop := finite_point (bmin b) /\ finite_point (bmax b).
