(** Single precision, for C251. *)
From Coq Require Import List ZArith QArith Qcanon.
From Verif Require Import Base ModelVec SpecRound SpecRoundKd.
Open Scope Qc_scope.

(** IEEE 754 binary32, round to nearest, ties to even; None is an infinity *)
Definition unbounded_single (x : Qc) : Qc :=
  let e := Z.max (exponent x) (-126) in
  Q2Qc (inject_Z (nearest (x * p2 (23 - e)))) * p2 (e - 23).
Definition round_single (x : Qc) : option Qc :=
  if Qcltb (Qcabs (unbounded_single x)) (p2 128) then Some (unbounded_single x) else None.
(** sqrtf has a relative error of at most 2^-24 *)
Definition sqrtf_spec (root : Qc -> Qc) : Prop :=
  forall y, 0 <= y -> 0 <= root y /\ (1 - p2 (-24)) * (1 - p2 (-24)) * y <= root y * root y /\ root y * root y <= (1 + p2 (-24)) * (1 + p2 (-24)) * y.
(** [l] is the length of [v] in single precision: the squares differ by 2^-22 of
    that of the true length *)
Definition length_in_singles (v : vec3) (l : Qc) : Prop :=
  let s := vx v * vx v + vy v * vy v + vz v * vz v in
  0 <= l /\ (1 - p2 (-22)) * s <= l * l /\ l * l <= (1 + p2 (-22)) * s.
(** no coordinate is extremely small or large, and the square of the length is in the
    range of singles *)
Definition moderate_vector (v : vec3) : Prop :=
  moderate (vx v) /\ moderate (vy v) /\ moderate (vz v) /\
  let s := vx v * vx v + vy v * vy v + vz v * vz v in p2 (-125) <= s /\ s <= p2 126.
