(** vec3::unit of cmmcore/vec.h with every operation followed by a rounding. *)
From Coq Require Import List ZArith QArith Qcanon Bool.
From Verif Require Import Base ModelVec ModelRoundKd ModelRoundLength.
Open Scope Qc_scope.

(** std::numeric_limits<double>::epsilon(), as used in vec.h:421-422 *)
Definition DBL_EPSILON : Qc := qc 1 4503599627370496.

Section Rounded.
Variable fl : nat -> Qc -> option Qc.
Variable to_float : Qc -> option Qc.
Variable root : Qc -> Qc.

(** the test of unitize, vec.h:421-422: such a vector is left as it is *)
Definition fleft_alone (l : Qc) : bool :=
  (l <=? DBL_EPSILON) || match fl 0 (l - 1) with Some d => d <=? DBL_EPSILON | None => false end.
(** vec3::unit, vec.h:433-438, and unitize, vec.h:420-429; None when a quotient is
    infinite. A finite number divided by an infinite length is 0. *)
Definition funit (v : vec3) : option vec3 :=
  match flength fl to_float root v with
  | None => Some (V3 0 0 0)
  | Some l =>
      if fleft_alone l then Some v
      else match fl 0 (vx v / l), fl 0 (vy v / l), fl 0 (vz v / l) with
           | Some x, Some y, Some z => Some (V3 x y z)
           | _, _, _ => None
           end
  end.
End Rounded.
