(** Vocabulary for statements about the speed of a curve: the usual limit
    definition of the derivative, written without reference to the program. *)
From Coq Require Import List ZArith QArith Qcanon.
From Verif Require Import Base ModelVec SpecNurbs.
Import ListNotations.
Open Scope Qc_scope.

(** every coordinate of [a] is within [r] of that of [b] *)
Definition within3 (a b : vec3) (r : Qc) : Prop :=
  Qcabs (vx a - vx b) <= r /\ Qcabs (vy a - vy b) <= r /\ Qcabs (vz a - vz b) <= r.

(** the point reached from [p] after time [h] at velocity [d] *)
Definition ahead (p : vec3) (h : Qc) (d : vec3) : vec3 := V3 (vx p + h * vx d) (vy p + h * vy d) (vz p + h * vz d).

(** f has derivative [d] at [t], among the parameters in [dom]:
    f(t') = f(t) + (t' - t) d + o(t' - t) *)
Definition has_velocity (f : Qc -> res vec3) (dom : Qc -> Prop) (t : Qc) (d : vec3) : Prop :=
  exists p, f t = Ok p /\
  forall eps, 0 < eps -> exists delta, 0 < delta /\
    forall t', dom t' -> Qcabs (t' - t) <= delta ->
      exists p', f t' = Ok p' /\ within3 p' (ahead p (t' - t) d) (eps * Qcabs (t' - t)).

(** f never moves faster than some K *)
Definition lipschitz (f : Qc -> res vec3) (dom : Qc -> Prop) : Prop :=
  exists K, forall t t', dom t -> dom t' ->
    exists p p', f t = Ok p /\ f t' = Ok p' /\ within3 p p' (K * Qcabs (t - t')).

(** no knot inside the domain occurs more than [m] times *)
Definition inner_multiplicity (n p : nat) (U : list Qc) (m : nat) : Prop :=
  forall t, knot U p < t -> t < knot U (n + 1) -> (multiplicity U t <= m)%nat.

(** p + u d + u^2 a *)
Definition quad3 (p d a : vec3) (u : Qc) : vec3 :=
  V3 (vx p + u * vx d + u * u * vx a) (vy p + u * vy d + u * u * vy a) (vz p + u * vz d + u * u * vz a).
