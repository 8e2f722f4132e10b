(** Vectors whose unit vector is not one. *)
From Coq Require Import List ZArith QArith Qcanon Bool Lia Lqa.
From Verif Require Import Base BaseFacts ModelVec ModelRoundKd ModelRoundLength ModelRoundUnit SpecRound SpecRoundKd SpecRoundCell SpecRoundLength SpecRoundUnit ProofRoundDouble ProofRoundKd WitnessRoundLength.
Open Scope Qc_scope.

Lemma long_unit : exists v, double_point v /\ longer_than_one v /\ forall root, funit full_never round_single root v = Some (V3 0 0 0).
Proof.
  exists (V3 (p2 64) 0 0). split; [apply axis_double; lia|]. split; [vm_compute; discriminate|]. intros root. unfold funit.
  assert (flength full_never round_single root (V3 (p2 64) 0 0) = None) as ->; [|reflexivity]. unfold flength.
  assert (match fsq_length full_never (V3 (p2 64) 0 0) with Some s => round_single s | None => None end = None) as E by (vm_compute; reflexivity). destruct (fsq_length _ _); [rewrite E|]; reflexivity.
Qed.
Lemma unit_case : double_point (V3 1 1 0) /\ moderate_vector (V3 1 1 0) /\ longer_than_one (V3 1 1 0).
Proof. destruct unit_diagonal as (A & B). split; [exact A|]. split; [exact B|]. vm_compute. discriminate. Qed.
