(** The cross product in double arithmetic: property C254. *)
From Coq Require Import List ZArith QArith Qcanon.
From Verif Require Import Base ModelVec ModelRoundCross SpecRound SpecRoundKd SpecRoundCell SpecRoundCross ProofRoundCross WitnessRoundCross.
Open Scope Qc_scope.

(** C254, in full: a vector has the cross product 0 with itself, and swapping two vectors
    gives the opposite. Both false where the compiler fuses one of two products. *)
Theorem C254_self_fused_refuted :
  in_all_doubles first_fused /\
  exists a v, double_point a /\ fcross first_fused a a = Some v /\ v <> V3 0 0 0 /\ ~ opposite v v.
Proof. exact (conj first_fused_ok self_case). Qed.
Print Assumptions C254_self_fused_refuted.

(** true without fused products, if the result is finite *)
Theorem C254_self_partial :
  forall fl, never_fused fl -> forall a v, fcross fl a a = Some v -> v = V3 0 0 0.
Proof. exact fcross_self. Qed.
Print Assumptions C254_self_partial.

Theorem C254_swap_partial :
  forall fl, never_fused fl -> forall a b,
  match fcross fl a b, fcross fl b a with Some v, Some w => opposite v w | None, None => True | _, _ => False end.
Proof. exact fcross_anti. Qed.
Print Assumptions C254_swap_partial.

(** with and without fused products, nothing is rounded on a grid of 26 bits *)
Theorem C254_grid_partial :
  forall fl, in_all_doubles fl -> forall e a b, (-500 <= e <= 450)%Z -> on_grid3 e 26 a -> on_grid3 e 26 b ->
  fcross fl a b = Some (v3cross a b).
Proof. exact fcross_grid. Qed.
Print Assumptions C254_grid_partial.

Example C254_fused : fcross first_fused (V3 0 long_square long_square) (V3 0 long_square long_square) = Some (V3 (p2 (-60)) 0 0).
Proof. exact self_fused. Qed.
Example C254_unfused : fcross full_never (V3 0 long_square long_square) (V3 0 long_square long_square) = Some (V3 0 0 0).
Proof. exact self_unfused. Qed.
(** the result need not be finite *)
Example C254_large : fcross full_never (V3 0 (p2 600) (p2 600)) (V3 0 (p2 600) (p2 600)) = None.
Proof. exact self_large. Qed.
Example C254_grid : on_grid3 0 26 (V3 1 0 0) /\ on_grid3 0 26 (V3 0 1 0) /\ v3cross (V3 1 0 0) (V3 0 1 0) = V3 0 0 1.
Proof. exact grid_case. Qed.
