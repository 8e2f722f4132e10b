(** Two sheets without volume that are reported, and a case that is not special. *)
From Coq Require Import List ZArith QArith Qcanon Permutation Bool Lia Lqa.
From Verif Require Import Base BaseFacts ModelVec ModelAabb ModelBvh ModelRoundBvh SpecAabb SpecBvh SpecRound SpecRoundKd SpecRoundBvh ProofAabb ProofBvh ProofRound ProofRoundDouble ProofRoundHull ProofRoundFull ProofRoundKd ProofRoundBvh.
Import ListNotations.
Open Scope Qc_scope.

(** a square of side 2^600 in the plane z = 0 *)
Definition sheet : aabb := Box (V3 0 0 0) (V3 (p2 600) (p2 600) 0).

Lemma sheet_proper : proper sheet.
Proof. intros ax. pose proof (p2_pos 600). destruct ax; cbn; qc_lra. Qed.
Lemma sheet_overlap : overlap_volume sheet sheet 0.
Proof. exists sheet. split; [exact sheet_proper|]. split; [tauto|]. unfold aabb_volume, sheet. cbn [vx vy vz bmax bmin]. ring. Qed.
Lemma huge_infinite : round_full (p2 600 * p2 600) = None.
Proof.
  rewrite <- p2_add. change (600 + 600)%Z with 1200%Z. unfold round_full. rewrite unbounded_id.
  - destruct (Qcltb _ _) eqn:E; [|reflexivity]. qcb. exfalso. pose proof (p2_mono 1024 1200 ltac:(lia)). pose proof (Qcle_Qcabs (p2 1200)). qc_lra.
  - exists 1%Z, 1200%Z. split; [cbn; lia|]. split; [lia|]. change (ofZ 1) with 1. ring.
Qed.
Lemma sheet_common : aabb_intersection sheet sheet = Some sheet.
Proof. apply common_some; try exact sheet_proper. split; [exact sheet_proper|tauto]. Qed.

Lemma sheets_reported fl : in_all_doubles fl -> forall part order sort i j, exists t1 t2,
  build_bvh part order sort [Obj i sheet] false = Some t1 /\ build_bvh part order sort [Obj j sheet] false = Some t2 /\
  Forall2 holds_pair (fintersect_bvh fl t1 t2) [(Obj i sheet, Obj j sheet)].
Proof.
  intros FL part order sort i j. eexists. eexists. split; [reflexivity|]. split; [reflexivity|].
  cbn [fintersect_bvh fold_right obox]. 
  match goal with |- context [aabb_intersection ?a ?b] => replace (aabb_intersection a b) with (Some sheet) by (symmetry; exact sheet_common) end.
  assert (fvolume fl sheet = NaN) as ->; [|repeat constructor].
  unfold fvolume, sheet. cbn [vx vy vz bmax bmin].
  replace (p2 600 - 0) with (ofZ 1 * p2 600) by (change (ofZ 1) with 1; ring). replace (0 - 0) with (ofZ 0 * p2 0) by (change (ofZ 0) with 0; ring).
  rewrite !(fl_exact fl 0 _ _ FL) by (cbn; lia). cbn [dof dmul].
  replace (ofZ 1 * p2 600 * (ofZ 1 * p2 600)) with (p2 600 * p2 600) by (change (ofZ 1) with 1; ring). rewrite (proj1 FL), huge_infinite. reflexivity.
Qed.
