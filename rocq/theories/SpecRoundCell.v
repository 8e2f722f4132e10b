(** Doubles, and what is asked of the single-precision square root. *)
From Coq Require Import List ZArith QArith Qcanon.
From Verif Require Import Base ModelVec SpecRound SpecRoundKd.
Open Scope Qc_scope.

(** a finite double *)
Definition a_double (x : Qc) : Prop := round_full x = Some x.
Definition double_point (p : vec3) : Prop := a_double (vx p) /\ a_double (vy p) /\ a_double (vz p).
(** the root is monotone, and that of 2^-104 is 2^-52 *)
Definition root_spec (root : Qc -> Qc) : Prop :=
  (forall x y, 0 <= x -> x <= y -> root x <= root y) /\ root (p2 (-104)) = p2 (-52).
