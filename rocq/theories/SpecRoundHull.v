(** Points on a grid, for C240. *)
From Coq Require Import List ZArith QArith Qcanon.
From Verif Require Import Base ModelVec SpecRound.
Open Scope Qc_scope.

(** both coordinates are multiples of 2^e, fewer than 2^b steps from 0 *)
Definition on_grid (e b : Z) (p : vec2) : Prop :=
  exists i j, (Z.abs i < 2 ^ b)%Z /\ (Z.abs j < 2 ^ b)%Z /\ ux p = Qc_of_Z i * p2 e /\ uy p = Qc_of_Z j * p2 e.
