(** Concrete cases for the rounding theorems. *)
From Coq Require Import List ZArith QArith Qcanon Bool Lia.
From Verif Require Import Base BaseFacts ModelVec ModelAabb ModelNurbs ModelSurface ModelRound.
From Verif Require Import SpecAabb SpecNurbs SpecCurve SpecSurface SpecRound ProofCurve WitnessNurbs WitnessSurface.
Import ListNotations.
Open Scope Qc_scope.

(** 1/3 as a double *)
Definition third : Qc := qc 6004799503160661 18014398509481984.
Definition coords_b (B : Qc) (P : list vec4) : bool :=
  forallb (fun q => Qcleb (Qcabs (wx q)) B && Qcleb (Qcabs (wy q)) B && Qcleb (Qcabs (wz q)) B) P.
Lemma coords_b_ok B P : coords_b B P = true -> coords_up_to B P.
Proof.
  unfold coords_b. rewrite forallb_forall. intros H q Hq. specialize (H q Hq). rewrite !andb_true_iff in H. destruct H as ((A & C) & D). qcb. auto.
Qed.
Definition net_b (B : Qc) (P : list (list vec4)) : bool :=
  forallb (forallb (fun q => Qcleb (Qcabs (wx q)) (B * ww q) && Qcleb (Qcabs (wy q)) (B * ww q) && Qcleb (Qcabs (wz q)) (B * ww q))) P.
Lemma net_b_ok B P : net_b B P = true -> net_up_to B P.
Proof.
  unfold net_b. rewrite forallb_forall. intros H row q Hr Hq. specialize (H row Hr). rewrite forallb_forall in H. specialize (H q Hq).
  rewrite !andb_true_iff in H. destruct H as ((A & C) & D). qcb. auto.
Qed.

Lemma third_rounds : round_double (qc 1 3) = Some third.
Proof.
  transitivity (Some (match round_double (qc 1 3) with Some y => y | None => 0 end)); [vm_compute; reflexivity|].
  f_equal.
Qed.
Lemma demo_hyps : good_curve demo 3 /\ in_curve demo 3 third /\ positive_weights (nc_cps demo) /\ coords_up_to (qc 4 1) (nc_cps demo) /\
  (forall q, In q (nc_cps demo) -> inside (nc_aabb demo) (xyz q)).
Proof.
  destruct demo_ok as (_ & G & U & _ & _ & _ & _ & _ & _ & _ & H). split; [exact G|]. split; [split; vm_compute; discriminate|].
  split; [apply unit_positive, U|]. split; [apply coords_b_ok; vm_compute; reflexivity|exact H].
Qed.
(** the double result, and that it is not the exact one *)
Lemma demo_rounded : exists p e, fevaluate never_fused demo third = Ok p /\ evaluate demo third = Ok e /\ vx p = vx e /\
  vy p = qc 4753799606668857 4503599627370496 /\ vy p <> vy e.
Proof.
  assert (exists p, fevaluate never_fused demo third = Ok p /\ this (vx p) = 6004799503160661 # 9007199254740992 /\
    this (vy p) = 4753799606668857 # 4503599627370496) as (p & Ep & Xp & Yp).
  { destruct (fevaluate never_fused demo third) as [p|e|] eqn:E; [exists p; split; [reflexivity|]|exfalso..].
    - apply (f_equal (fun r => match r with Ok p => (this (vx p), this (vy p)) | _ => (0%Q, 0%Q) end)) in E. vm_compute in E.
      apply pair_equal_spec in E. destruct E as (A & B). split; symmetry; [exact A|exact B].
    - apply (f_equal (fun r => match r with Ok p => true | _ => false end)) in E. vm_compute in E. discriminate E.
    - apply (f_equal (fun r => match r with Ok p => true | _ => false end)) in E. vm_compute in E. discriminate E. }
  assert (exists p, evaluate demo third = Ok p /\ this (vx p) = 6004799503160661 # 9007199254740992 /\
    this (vy p) = 685094724390011950742042806466787 # 649037107316853453566312041152512) as (e & Ee & Xe & Ye).
  { destruct (evaluate demo third) as [e|e|] eqn:E; [exists e; split; [reflexivity|]|exfalso..].
    - apply (f_equal (fun r => match r with Ok p => (this (vx p), this (vy p)) | _ => (0%Q, 0%Q) end)) in E. vm_compute in E.
      apply pair_equal_spec in E. destruct E as (A & B). split; symmetry; [exact A|exact B].
    - apply (f_equal (fun r => match r with Ok p => true | _ => false end)) in E. vm_compute in E. discriminate E.
    - apply (f_equal (fun r => match r with Ok p => true | _ => false end)) in E. vm_compute in E. discriminate E. }
  exists p, e. split; [exact Ep|]. split; [exact Ee|]. split; [apply Qc_is_canon; rewrite Xp, Xe; reflexivity|].
  split; [apply Qc_is_canon; rewrite Yp; reflexivity|]. intros H. rewrite H, Ye in Yp. discriminate Yp.
Qed.
Lemma demo_surf_hyps : good_surf demo_rat 3 2 /\ in_surf demo_rat 3 2 third third /\ positive_surf demo_rat /\ net_up_to (qc 6 1) (ns_cps demo_rat).
Proof.
  split; [exact demo_rat_good|]. split; [split; split; vm_compute; discriminate|]. split; [exact demo_rat_pos|]. apply net_b_ok. vm_compute. reflexivity.
Qed.
Lemma demo_surf_rounded : exists p, fns_evaluate never_fused demo_rat third third = Ok p /\ this (vx p) = 788604998041669 # 1125899906842624.
Proof.
  destruct (fns_evaluate never_fused demo_rat third third) as [p|e|] eqn:E; [exists p; split; [reflexivity|]|exfalso..].
  - apply (f_equal (fun r => match r with Ok p => this (vx p) | _ => 0%Q end)) in E. vm_compute in E. symmetry. exact E.
  - apply (f_equal (fun r => match r with Ok p => true | _ => false end)) in E. vm_compute in E. discriminate E.
  - apply (f_equal (fun r => match r with Ok p => true | _ => false end)) in E. vm_compute in E. discriminate E.
Qed.
Lemma demo_basis : exists s N, find_span 3 2 third (nc_knots demo) = Ok s /\ fbasis_funs never_fused s third 2 (nc_knots demo) zeros = Ok N /\
  map this (firstn 3 N) = [4003199668773775 # 9007199254740992; 1 # 2; 2001599834386887 # 36028797018963968]%Q.
Proof.
  exists 2%nat. destruct (fbasis_funs never_fused 2 third 2 (nc_knots demo) zeros) as [N|e|] eqn:E; [exists N; split; [vm_compute; reflexivity|split; [reflexivity|]]|exfalso..].
  - apply (f_equal (fun r => match r with Ok N => map this (firstn 3 N) | _ => [] end)) in E. vm_compute in E. vm_compute. symmetry. exact E.
  - apply (f_equal (fun r => match r with Ok p => true | _ => false end)) in E. vm_compute in E. discriminate E.
  - apply (f_equal (fun r => match r with Ok p => true | _ => false end)) in E. vm_compute in E. discriminate E.
Qed.
Lemma doubles_hold : in_doubles never_fused /\ in_doubles always_fused.
Proof. split; (split; [reflexivity|]); intros [|k]; [left|left|left|right]; reflexivity. Qed.
(** 3/11 as a double *)
Definition elevenths : Qc := qc 4913017775313268 18014398509481984.
Definition second_of (r : res (list Qc)) : Q := match r with Ok N => this (nth 1 N 0) | _ => 0%Q end.
Lemma fused_differs : exists N M, fbasis_funs never_fused 2 elevenths 2 (nc_knots demo) zeros = Ok N /\
  fbasis_funs always_fused 2 elevenths 2 (nc_knots demo) zeros = Ok M /\ nth 1 N 0 <> nth 1 M 0.
Proof.
  assert (Qeq_bool (second_of (fbasis_funs never_fused 2 elevenths 2 (nc_knots demo) zeros))
      (second_of (fbasis_funs always_fused 2 elevenths 2 (nc_knots demo) zeros)) = false) as A by (vm_compute; reflexivity).
  destruct (fbasis_funs never_fused 2 elevenths 2 (nc_knots demo) zeros) as [N|e|] eqn:E.
  2,3: apply (f_equal (fun r => match r with Ok p => true | _ => false end)) in E; vm_compute in E; discriminate E.
  destruct (fbasis_funs always_fused 2 elevenths 2 (nc_knots demo) zeros) as [M|e|] eqn:F.
  2,3: apply (f_equal (fun r => match r with Ok p => true | _ => false end)) in F; vm_compute in F; discriminate F.
  exists N, M. split; [reflexivity|]. split; [reflexivity|]. intros H. cbn [second_of] in A. rewrite H in A. 
  rewrite (proj2 (Qeq_bool_iff _ _) (Qeq_refl _)) in A. discriminate A.
Qed.
