(** Unit vectors in single precision, for C252. *)
From Coq Require Import List ZArith QArith Qcanon.
From Verif Require Import Base ModelVec SpecRound.
Open Scope Qc_scope.

(** the square of the length is 1 up to 2^-21 *)
Definition unit_in_singles (p : vec3) : Prop :=
  let s := vx p * vx p + vy p * vy p + vz p * vz p in 1 - p2 (-21) <= s /\ s <= 1 + p2 (-21).
(** [p] is a positive multiple of [v], up to a relative error of 2^-53 in each coordinate *)
Definition same_direction (v p : vec3) : Prop :=
  exists k, 0 < k /\ Qcabs (vx p - k * vx v) <= p2 (-53) * Qcabs (k * vx v) /\
    Qcabs (vy p - k * vy v) <= p2 (-53) * Qcabs (k * vy v) /\ Qcabs (vz p - k * vz v) <= p2 (-53) * Qcabs (k * vz v).
(** longer than 1 by 2^-20 in the square *)
Definition longer_than_one (v : vec3) : Prop := 1 + p2 (-20) <= vx v * vx v + vy v * vy v + vz v * vz v.
