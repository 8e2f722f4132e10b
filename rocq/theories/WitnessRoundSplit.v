(** Concrete cases for the rounding of splitting. *)
From Coq Require Import List ZArith QArith Qcanon Bool Lia.
From Verif Require Import Base BaseFacts ModelVec ModelAabb ModelNurbs ModelRound ModelRoundInsert ModelRoundSplit.
From Verif Require Import SpecAabb SpecNurbs SpecCurve SpecRound SpecRoundInsert WitnessNurbs WitnessRound WitnessRoundInsert.
Import ListNotations.
Open Scope Qc_scope.

Lemma split_hyps : good_curve demo 3 /\ (1 <= nc_degree demo)%nat /\ unit_weights (nc_cps demo) /\ interval_current demo /\
  knot (nc_knots demo) (nc_degree demo) < third /\ third < knot (nc_knots demo) (3 + 1) /\ clear_of (p2 (-53)) (nc_knots demo) third /\
  (multiplicity (nc_knots demo) third <= nc_degree demo)%nat /\ coords_up_to (qc 4 1) (nc_cps demo).
Proof.
  destruct insert_hyps as (G & _ & T & C & _ & U & B & _).
  split; [exact G|]. split; [vm_compute; lia|]. split; [exact U|]. split; [vm_compute; reflexivity|]. split; [vm_compute; reflexivity|]. split; [exact T|].
  split; [exact C|]. split; [vm_compute; lia|exact B].
Qed.
Definition start_of (r : res (ncurve * ncurve)) : Q := match r with Ok (_, d) => this (wx (nth 0 (nc_cps d) v4zero)) | _ => 0%Q end.
Lemma split_rounded : exists a b c d, fsplit never_fused demo third = Ok (a, b) /\ nc_split demo third false = Ok (c, d) /\
  wx (nth 0 (nc_cps b) v4zero) <> wx (nth 0 (nc_cps d) v4zero).
Proof.
  assert (Qeq_bool (start_of (fsplit never_fused demo third)) (start_of (nc_split demo third false)) = false) as A by (vm_compute; reflexivity).
  destruct (fsplit never_fused demo third) as [[a b]|e|] eqn:E.
  2,3: apply (f_equal (fun r => match r with Ok p => true | _ => false end)) in E; vm_compute in E; discriminate E.
  destruct (nc_split demo third false) as [[c d]|e|] eqn:F.
  2,3: apply (f_equal (fun r => match r with Ok p => true | _ => false end)) in F; vm_compute in F; discriminate F.
  exists a, b, c, d. split; [reflexivity|]. split; [reflexivity|]. intros H. cbn [start_of] in A. rewrite H in A.
  rewrite (proj2 (Qeq_bool_iff _ _) (Qeq_refl _)) in A. discriminate A.
Qed.
