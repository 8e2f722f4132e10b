(** Two points whose computed distance is 0. *)
From Coq Require Import List ZArith QArith Qcanon Bool Lia Lqa.
From Verif Require Import Base BaseFacts ModelVec ModelRoundKd SpecRound SpecRoundKd SpecRoundCell SpecRoundDist SpecRoundSegm ProofRoundDouble WitnessRoundLength.
Open Scope Qc_scope.

Lemma close_pair : exists a b, double_point a /\ double_point b /\ a <> b /\ fdist_sq3 full_never a b = Some 0.
Proof.
  exists (V3 (p2 (-600)) 0 0), (V3 (p2 (-599)) 0 0). split; [apply axis_double; lia|]. split; [apply axis_double; lia|]. split.
  - intros H. apply (f_equal (fun v => Qcltb (vx v) (p2 (-599)))) in H. vm_compute in H. discriminate.
  - assert (match fdist_sq3 full_never (V3 (p2 (-600)) 0 0) (V3 (p2 (-599)) 0 0) with Some s => Qceqb s 0 | None => false end = true) as E by (vm_compute; reflexivity).
    destruct (fdist_sq3 _ _ _) as [s|]; [|discriminate]. apply Qceqb_iff in E. congruence.
Qed.
Lemma box_case : in_between (V3 0 0 0) (V3 1 (- (1)) 0) (V3 (1 + 1) (- (1)) 0).
Proof. split; [left; split; vm_compute; discriminate|]. split; [right; split; vm_compute; discriminate|left; split; vm_compute; discriminate]. Qed.
Lemma apart_case : distinct_enough (V3 1 0 0) (V3 0 0 0).
Proof. left. vm_compute. discriminate. Qed.
