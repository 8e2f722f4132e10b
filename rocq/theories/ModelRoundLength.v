(** vec3::length of cmmcore/vec.h with every operation followed by a rounding. *)
From Coq Require Import List ZArith QArith Qcanon Bool.
From Verif Require Import Base ModelVec ModelRoundKd.
Open Scope Qc_scope.

Section Rounded.
Variable fl : nat -> Qc -> option Qc.
(** the conversion of a double to float, and sqrtf of a float *)
Variable to_float : Qc -> option Qc.
Variable root : Qc -> Qc.

(** the sum of squares, vec.h:416; None is infinity *)
Definition fsq_length (v : vec3) : option Qc :=
  fplus fl (fplus fl (fl 11 (vx v * vx v)) (fl 12 (vy v * vy v))) (fl 13 (vz v * vz v)).
(** vec3::length, vec.h:411-419: sqrtf takes a float; the root of infinity is infinity *)
Definition flength (v : vec3) : option Qc :=
  match fsq_length v with
  | None => None
  | Some s => match to_float s with None => None | Some y => Some (root y) end
  end.
End Rounded.
