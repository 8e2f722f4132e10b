(** Ways to compute a difference of two products, for C254. *)
From Coq Require Import List ZArith QArith Qcanon Bool.
From Verif Require Import Base ModelVec SpecRound SpecRoundKd.
Open Scope Qc_scope.

(** every product is rounded *)
Definition never_fused (fl : nat -> Qc -> option Qc) : Prop := forall k x, fl k x = round_full x.
(** the first product of each difference is fused, the second is rounded, as one fused
    multiply-add does *)
Definition first_fused (k : nat) : Qc -> option Qc := if Nat.odd k then Some else round_full.
(** all coordinates are the opposite *)
Definition opposite (p q : vec3) : Prop := vx p = - vx q /\ vy p = - vy q /\ vz p = - vz q.
