(** vec3::cross of cmmcore/vec.h once more, with every arithmetic operation followed by a
    rounding. *)
From Coq Require Import List ZArith QArith Qcanon.
From Verif Require Import Base ModelVec.
Open Scope Qc_scope.

Section Rounded.
Variable fl : nat -> Qc -> option Qc.

(** one coordinate [p * q - r * s], vec.h:358-360; either product may be fused. None is an
    infinity or NaN. *)
Definition fminor (k : nat) (p q r s : Qc) : option Qc :=
  match fl k (p * q), fl (k + 1)%nat (r * s) with Some m, Some n => fl 0 (m - n) | _, _ => None end.
(** vec3::cross, vec.h:356-362; None if some coordinate is not finite *)
Definition fcross (a b : vec3) : option vec3 :=
  match fminor 31 (vy a) (vz b) (vz a) (vy b), fminor 33 (vz a) (vx b) (vx a) (vz b), fminor 35 (vx a) (vy b) (vy a) (vx b) with
  | Some x, Some y, Some z => Some (V3 x y z)
  | _, _, _ => None
  end.
End Rounded.
