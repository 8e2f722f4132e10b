(** Two segments that meet across a cell border rounding has moved. *)
From Coq Require Import List ZArith QArith Qcanon Bool Lia Lqa.
From Verif Require Import Base BaseFacts ModelVec ModelPolyline ModelRoundKd ModelRoundCell ModelRoundJoin SpecPolyline SpecRound SpecRoundKd SpecRoundCell SpecRoundJoin ProofRoundDouble WitnessRoundCell.
Import ListNotations.
Open Scope Qc_scope.

Definition corner : list segment := [SEG (V3 (p2 (-30)) 0 0) (V3 0 0 0); SEG (V3 odd_coordinate 0 0) (V3 0 (p2 (-30)) 0)].
Lemma corner_joined : fassemble_polylines full_never (fnear full_never step_root) corner [] = Ok [[V3 (p2 (-30)) 0 0; V3 0 0 0; V3 0 (p2 (-30)) 0]].
Proof. vm_compute. reflexivity. Qed.
Lemma corner_double : Forall double_segment corner.
Proof.
  assert (a_double 0) as Z by (apply (f_equal Some), Qc_is_canon; vm_compute; reflexivity).
  assert (a_double (p2 (-30))) as P by (apply (f_equal Some), Qc_is_canon; vm_compute; reflexivity).
  pose proof (proj1 odd_cell) as O. repeat constructor; assumption.
Qed.
Lemma corner_small : Forall small_segment corner.
Proof. repeat constructor; discriminate. Qed.
