(** Points that are further away, for C253. *)
From Coq Require Import List ZArith QArith Qcanon.
From Verif Require Import Base ModelVec SpecRound.
Open Scope Qc_scope.

Definition between (a b c : Qc) : Prop := (a <= b /\ b <= c) \/ (c <= b /\ b <= a).
(** [b] is in the box with the corners [a] and [c] *)
Definition in_between (a b c : vec3) : Prop :=
  between (vx a) (vx b) (vx c) /\ between (vy a) (vy b) (vy c) /\ between (vz a) (vz b) (vz c).
