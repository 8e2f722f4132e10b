(** Segments closestPointOnSegm is called with. *)
From Coq Require Import List ZArith QArith Qcanon Bool Lia Lqa.
From Verif Require Import Base BaseFacts ModelVec ModelRoundKd ModelRoundSegm SpecRound SpecRoundKd SpecRoundCell SpecRoundSegm ProofRoundDouble ProofRoundFull ProofRoundKd.
Import ListNotations.
Open Scope Qc_scope.

Lemma is_point o p : match o with Point q => Qceqb (vx q) (vx p) && Qceqb (vy q) (vy p) && Qceqb (vz q) (vz p) | _ => false end = true -> o = Point p.
Proof.
  destruct o as [q| |]; try discriminate. intros H. apply andb_true_iff in H as (H & H3). apply andb_true_iff in H as (H1 & H2). apply Qceqb_iff in H1, H2, H3. destruct p, q. cbn in *. congruence.
Qed.
Lemma power_double m : (-1074 <= m <= 960)%Z -> a_double (p2 m).
Proof. intros H. pose proof (full_exact 1 m ltac:(cbn; lia) H) as E. change (ofZ 1) with 1 in E. rewrite Qcmult_1_l in E. exact E. Qed.
(** the squared length of this segment is 2^-1200, which is rounded to 0 *)
Lemma tiny_segment : exists a b, double_point a /\ double_point b /\ a <> b /\ fclosest_on_segm full_never a b = NotANumber.
Proof.
  assert (a_double 0) as Z by (apply (f_equal Some), Qc_is_canon; vm_compute; reflexivity).
  assert (forall m, a_double (p2 m) -> double_point (V3 (p2 m) 0 0)) as P by (intros m H; repeat split; assumption).
  exists (V3 (p2 (-600)) 0 0), (V3 (p2 (-599)) 0 0). split; [|split; [|split]].
  - apply P, power_double. lia.
  - apply P, power_double. lia.
  - intros H. apply (f_equal (fun v => Qcltb (vx v) (p2 (-599)))) in H. vm_compute in H. discriminate.
  - vm_compute. reflexivity.
Qed.
(** the whole segment is on the right of the origin, the computed point is the origin *)
Lemma end_missed : fclosest_on_segm full_never (V3 1 0 0) (V3 (p2 (-60)) 0 0) = Point (V3 0 0 0).
Proof. apply is_point. vm_compute. reflexivity. Qed.
Lemma third_grid : on_grid3 0 24 (V3 (-(1)) 1 0) /\ on_grid3 0 24 (V3 1 (1 + 1) 1) /\ V3 (-(1)) 1 0 <> V3 1 (1 + 1) 1.
Proof.
  split; [|split; [|discriminate]].
  - exists (-1)%Z, 1%Z, 0%Z. repeat split; apply Qc_is_canon; vm_compute; reflexivity.
  - exists 1%Z, 2%Z, 1%Z. repeat split; apply Qc_is_canon; vm_compute; reflexivity.
Qed.
(** the closest point is at the parameter 1/6 *)
Lemma third_point : fclosest_on_segm full_never (V3 (-(1)) 1 0) (V3 1 (1 + 1) 1) = Point (V3 (qc (-3002399751580331) 4503599627370496) (qc 5254199565265579 4503599627370496) (qc 6004799503160661 36028797018963968)).
Proof. apply is_point. vm_compute. reflexivity. Qed.
Lemma far_apart : coords_within (p2 500) (V3 1 0 0) /\ coords_within (p2 500) (V3 (p2 (-60)) 0 0) /\ distinct_enough (V3 1 0 0) (V3 (p2 (-60)) 0 0).
Proof.
  assert (Qcabs 1 <= p2 500) as A by (rewrite <- p2_0; change (Qcabs (p2 0)) with (p2 0); apply p2_mono; lia).
  assert (Qcabs 0 <= p2 500) as B by (change (Qcabs 0) with 0; pose proof (p2_pos 500); qc_lra).
  assert (Qcabs (p2 (-60)) <= p2 500) as C by (change (Qcabs (p2 (-60))) with (p2 (-60)); apply p2_mono; lia).
  split; [repeat split; assumption|]. split; [repeat split; assumption|]. left. cbn [vx]. apply Qcle_trans with (p2 (-1)); [apply p2_mono; lia|]. vm_compute. discriminate.
Qed.
Lemma start_case : double_point (V3 1 (p2 1) 0) /\ coords_within (p2 500) (V3 1 (p2 1) 0) /\ coords_within (p2 500) (V3 (p2 2) (p2 1) (- (1))) /\ behind_start (V3 1 (p2 1) 0) (V3 (p2 2) (p2 1) (- (1))).
Proof.
  assert (a_double 1) as O by (pose proof (power_double 0 ltac:(lia)) as H; rewrite p2_0 in H; exact H).
  assert (a_double 0) as Z by (pose proof (full_exact 0 0 ltac:(cbn; lia) ltac:(lia)) as E; change (ofZ 0) with 0 in E; rewrite Qcmult_0_l in E; exact E).
  split; [split; [exact O|]; split; [apply power_double; lia|exact Z]|]. split; [repeat split; vm_compute; discriminate|]. split; repeat split; vm_compute; discriminate.
Qed.
(** the squared length is rounded to 0, the quotient is infinite, and the end is found *)
Lemma infinite_quotient : fclosest_on_segm full_never (V3 (p2 (-490)) 0 0) (V3 (p2 (-490) - p2 (-540)) 0 0) = Point (V3 (p2 (-490) - p2 (-540)) 0 0).
Proof. apply is_point. vm_compute. reflexivity. Qed.
