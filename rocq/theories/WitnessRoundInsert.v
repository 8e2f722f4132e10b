(** Concrete cases for the rounding of knot insertion. *)
From Coq Require Import List ZArith QArith Qcanon Bool Lia.
From Verif Require Import Base BaseFacts ModelVec ModelAabb ModelNurbs ModelRound ModelRoundInsert.
From Verif Require Import SpecAabb SpecNurbs SpecCurve SpecRound SpecRoundInsert WitnessNurbs WitnessRound.
Import ListNotations.
Open Scope Qc_scope.

Definition clear_b (u : Qc) (U : list Qc) (t : Qc) : bool := forallb (fun x => Qceqb x t || Qcltb tol12 ((1 - u) * (x - t)) || Qcltb tol12 ((1 - u) * (t - x))) U.
Lemma clear_b_ok u U t : clear_b u U t = true -> clear_of u U t.
Proof.
  unfold clear_b. rewrite forallb_forall. intros H x Hx. specialize (H x Hx). rewrite !orb_true_iff in H. destruct H as [[H|H]|H]; qcb; auto.
Qed.
Lemma insert_hyps : good_curve demo 3 /\ knot (nc_knots demo) (nc_degree demo) <= third /\ third < knot (nc_knots demo) (3 + 1) /\
  clear_of (p2 (-53)) (nc_knots demo) third /\ (2 + multiplicity (nc_knots demo) third <= nc_degree demo)%nat /\ unit_weights (nc_cps demo) /\
  coords_up_to (qc 4 1) (nc_cps demo) /\ weights_up_to 1 (nc_cps demo).
Proof.
  destruct demo_hyps as (G & _ & _ & C & _). destruct demo_ok as (_ & _ & U & _).
  split; [exact G|]. split; [vm_compute; discriminate|]. split; [vm_compute; reflexivity|]. split; [apply clear_b_ok; vm_compute; reflexivity|].
  split; [vm_compute; lia|]. split; [exact U|]. split; [exact C|]. intros q Hq. rewrite (U q Hq). discriminate.
Qed.
Definition third_x (r : res ncurve) : Q := match r with Ok d => this (wx (nth 2 (nc_cps d) v4zero)) | _ => 0%Q end.
(** the curve computed with roundings is another one than the exact curve *)
Lemma insert_rounded : exists d e, finsert_knot never_fused demo third 2 = Ok d /\ insert_knot demo third 2 = Ok e /\
  wx (nth 2 (nc_cps d) v4zero) <> wx (nth 2 (nc_cps e) v4zero).
Proof.
  assert (Qeq_bool (third_x (finsert_knot never_fused demo third 2)) (third_x (insert_knot demo third 2)) = false) as A by (vm_compute; reflexivity).
  destruct (finsert_knot never_fused demo third 2) as [d|e|] eqn:E.
  2,3: apply (f_equal (fun r => match r with Ok p => true | _ => false end)) in E; vm_compute in E; discriminate E.
  destruct (insert_knot demo third 2) as [c|e|] eqn:F.
  2,3: apply (f_equal (fun r => match r with Ok p => true | _ => false end)) in F; vm_compute in F; discriminate F.
  exists d, c. split; [reflexivity|]. split; [reflexivity|]. intros H. cbn [third_x] in A. rewrite H in A.
  rewrite (proj2 (Qeq_bool_iff _ _) (Qeq_refl _)) in A. discriminate A.
Qed.
Lemma insert_fused : exists d, finsert_knot always_fused demo third 2 = Ok d.
Proof.
  destruct (finsert_knot always_fused demo third 2) as [d|e|] eqn:E; [exists d; reflexivity|..];
  apply (f_equal (fun r => match r with Ok p => true | _ => false end)) in E; vm_compute in E; discriminate E.
Qed.
