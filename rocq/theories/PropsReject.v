(** The rejection test of curve-surface intersection. *)
From Coq Require Import List ZArith QArith Qcanon.
From Verif Require Import Base ModelVec ModelNurbs ModelSurface ModelGjk ModelCsx SpecNurbs SpecCurve SpecSurface SpecCcx SpecGjk SpecCsx SpecSsx
  ProofReject WitnessCcx WitnessCsx.
Import ListNotations.
Local Open Scope Qc_scope.

(** C217 *)
Theorem C217_gjk_test_sound :
  forall len tol, 0 <= tol -> len (V3 0 0 0) = Some 0 -> sound_apart (gjk_apart len tol).
Proof. exact gjk_apart_sound. Qed.
Print Assumptions C217_gjk_test_sound.

Theorem C217_crossing_not_rejected :
  forall len tol c s t u v p ac au av, 0 <= tol -> len (V3 0 0 0) = Some 0 ->
  cuttable_curve ac c -> cuttable_surf au av s -> crosses_at c s t u v p -> no_new (gjk_apart len tol) c s <> Ok true.
Proof. exact crossing_not_rejected. Qed.
Print Assumptions C217_crossing_not_rejected.

(** control points on two sides of a plane parallel to the axes are rejected, and
    only those are before the GJK test *)
Theorem C217_far_rejected :
  forall apart c s A B ax, points3d c = Ok A -> flat3d s = Ok B -> A <> [] -> B <> [] ->
  (forall a b, In a A -> In b B -> coord a ax < coord b ax) \/ (forall a b, In a A -> In b B -> coord b ax < coord a ax) -> no_new apart c s = Ok true.
Proof. exact far_rejected. Qed.
Print Assumptions C217_far_rejected.

Theorem C217_near_decided :
  forall apart c s A B, points3d c = Ok A -> flat3d s = Ok B -> A <> [] -> B <> [] ->
  (forall ax, exists a b a' b', In a A /\ In b B /\ In a' A /\ In b' B /\ coord b ax <= coord a ax /\ coord a' ax <= coord b' ax) -> no_new apart c s = apart A B.
Proof. exact near_decided. Qed.
Print Assumptions C217_near_decided.

Example C217_case : 0 <= milli /\ len_l1 (V3 0 0 0) = Some 0 /\ (forall a, cuttable_curve a pole) /\ (forall au av, cuttable_surf au av floor1) /\
  crosses_at pole floor1 (qc 1 4) (qc 5 8) (qc 3 4) (V3 1 (qc 2 1) 0).
Proof.
  destruct pole_first_case as (_ & _ & _ & _ & _ & _ & _ & C & L).
  exact (conj milli_nonneg (conj L (conj pole_cuttable (conj floor1_cuttable C)))).
Qed.
