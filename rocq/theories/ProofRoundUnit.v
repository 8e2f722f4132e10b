(** The unit vector as computed. *)
From Coq Require Import List ZArith QArith Qcanon Bool Lia Lqa.
From Verif Require Import Base BaseFacts ModelVec ModelRoundKd ModelRoundLength ModelRoundUnit SpecRound SpecRoundKd SpecRoundCell SpecRoundLength SpecRoundUnit ProofRound ProofRoundDouble ProofRoundHull ProofRoundFull ProofRoundKd ProofRoundLength.
Open Scope Qc_scope.

Lemma sq_le_inv a b : 0 <= b -> a * a <= b * b -> a <= b.
Proof. intros B H. apply Qcnot_lt_le. intros L. assert (0 < (a - b) * (a + b)) by (apply mul_pos; qc_lra). qc_nra. Qed.
Lemma moderate_sq x s : moderate x -> x * x <= s -> s <= p2 126 -> Qcabs x <= p2 63.
Proof. intros _ H S. apply sq_le_inv; [apply lt_le, p2_pos|]. rewrite <- sq_abs, <- p2_add. change (63 + 63)%Z with 126%Z. eapply Qcle_trans; eassumption. Qed.
(** one quotient *)
Lemma quotient_ok x l : moderate x -> 1 <= l -> l <= p2 64 -> Qcabs x <= p2 63 -> exists y, round_full (x / l) = Some y /\ Qcabs (y - x / l) <= u53 * Qcabs (x / l).
Proof.
  intros M L1 L2 X. assert (0 < 1) as O by reflexivity. assert (0 < l) as LP by (eapply Qclt_le_trans; eassumption). assert (l <> 0) as L0 by (intros ->; discriminate).
  assert (x / l * l = x) as E by (field; exact L0). pose proof (Qcabs_mul (x / l) l (lt_le _ _ LP)) as A. rewrite E in A. pose proof (Qcabs_nonneg (x / l)) as P.
  apply full_rel. destruct M as [->|(M & _)].
  - left. field. exact L0.
  - right. set (q := Qcabs (x / l)) in *. clearbody q. split.
    + apply Qcnot_lt_le. intros B. assert (q * l <= p2 (-1022) * p2 64) as C by (apply Qcle_trans with (q * p2 64); [apply mul_le_l; assumption|]; rewrite !(Qcmult_comm _ (p2 64)); apply mul_le_l; [apply lt_le, p2_pos|apply lt_le, B]).
      rewrite <- p2_add, <- A in C. pose proof (Qcle_trans _ _ _ M C) as H. assert (p2 (-1022 + 64) < p2 (-500)) as K by (change (-500)%Z with (-501 + 1)%Z; rewrite p2_step; pose proof (p2_mono (-1022 + 64) (-501) ltac:(lia)); pose proof (p2_pos (-501)); qc_lra).
      exact (Qclt_not_le _ _ K H).
    + apply Qcle_trans with (p2 63); [|apply p2_mono; lia]. apply Qcle_trans with (q * l); [|rewrite <- A; exact X]. rewrite <- (Qcmult_1_r q) at 1. apply mul_le_l; assumption.
Qed.
Lemma square_near y q : Qcabs (y - q) <= u53 * Qcabs q -> (1 - u53) * (1 - u53) * (q * q) <= y * y /\ y * y <= (1 + u53) * (1 + u53) * (q * q).
Proof. intros H. destruct (within_sq q y H) as (A & B). change ((1 - u53) ^ 2) with ((1 - u53) * ((1 - u53) * 1)) in A. change ((1 + u53) ^ 2) with ((1 + u53) * ((1 + u53) * 1)) in B. rewrite Qcmult_1_r in A, B. split; assumption. Qed.
Lemma unit_factors : (1 - p2 (-21)) * (1 + p2 (-22)) <= (1 - u53) * (1 - u53) /\ (1 + u53) * (1 + u53) <= (1 + p2 (-21)) * (1 - p2 (-22)).
Proof. split; vm_compute; discriminate. Qed.
Lemma one_factors : (1 + p2 (-23)) * (1 + p2 (-23)) <= (1 - p2 (-22)) * (1 + p2 (-20)) /\ (1 + p2 (-22)) * p2 126 <= p2 64 * p2 64.
Proof. split; vm_compute; discriminate. Qed.
Lemma not_left_alone fl l : in_all_doubles fl -> 1 + p2 (-23) <= l -> l <= p2 64 -> fleft_alone fl l = false.
Proof.
  intros FL L H. unfold fleft_alone. assert (DBL_EPSILON < p2 (-23)) as E by reflexivity. assert (0 < 1) as O by reflexivity.
  apply orb_false_iff. split.
  - destruct (l <=? DBL_EPSILON) eqn:A; [|reflexivity]. exfalso. qcb. pose proof (p2_pos (-23)). assert (DBL_EPSILON < 1) by reflexivity. qc_lra.
  - assert (p2 (-23) <= l - 1) as B by qc_lra. rewrite (proj1 FL). destruct (round_full (l - 1)) as [d|] eqn:R; [|reflexivity]. destruct (full_some _ _ R) as (-> & _). apply unbounded_mono in B.
    rewrite unbounded_id in B by (exists 1%Z, (-23)%Z; split; [cbn; lia|]; split; [lia|]; change (ofZ 1) with 1; ring).
    destruct (unbounded (l - 1) <=? DBL_EPSILON) eqn:A; [|reflexivity]. exfalso. qcb. exact (Qclt_not_le _ _ E (Qcle_trans _ _ _ B A)).
Qed.
Lemma funit_ok : forall fl, in_all_doubles fl -> forall root, sqrtf_spec root -> forall v, double_point v -> moderate_vector v -> longer_than_one v ->
  exists p, funit fl round_single root v = Some p /\ unit_in_singles p /\ same_direction v p.
Proof.
  intros fl FL root RS v D MV LO. destruct (flength_ok fl FL root RS v D MV) as (l & E & (L0 & LA & LB)). destruct MV as (M1 & M2 & M3 & _ & S2). unfold longer_than_one in LO.
  assert (forall a, 0 <= a * a) as SQ by (intros a; rewrite sq_abs; apply mul_nonneg; apply Qcabs_nonneg).
  pose proof (SQ (vx v)) as X0. pose proof (SQ (vy v)) as Y0. pose proof (SQ (vz v)) as Z0.
  set (s := vx v * vx v + vy v * vy v + vz v * vz v) in *.
  assert (Qcabs (vx v) <= p2 63) as X1 by (apply (moderate_sq _ s M1); [unfold s; clear -X0 Y0 Z0; qc_lra|exact S2]).
  assert (Qcabs (vy v) <= p2 63) as Y1 by (apply (moderate_sq _ s M2); [unfold s; clear -X0 Y0 Z0; qc_lra|exact S2]).
  assert (Qcabs (vz v) <= p2 63) as Z1 by (apply (moderate_sq _ s M3); [unfold s; clear -X0 Y0 Z0; qc_lra|exact S2]).
  destruct one_factors as (O1 & O2). assert (0 <= 1 - p2 (-22)) as Q1 by (vm_compute; discriminate). assert (0 <= 1 + p2 (-22)) as Q2 by (vm_compute; discriminate).
  assert (1 + p2 (-23) <= l) as LL by (apply sq_le_inv; [exact L0|]; eapply Qcle_trans; [exact O1|]; eapply Qcle_trans; [|exact LA]; apply scale_le; assumption).
  assert (l <= p2 64) as LU by (apply sq_le_inv; [apply lt_le, p2_pos|]; eapply Qcle_trans; [exact LB|]; eapply Qcle_trans; [|exact O2]; apply scale_le; assumption).
  assert (1 <= l) as L1 by (eapply Qcle_trans; [|exact LL]; vm_compute; discriminate).
  unfold funit. rewrite E, (not_left_alone fl l FL LL LU), !(proj1 FL).
  destruct (quotient_ok _ _ M1 L1 LU X1) as (x & -> & Ex). destruct (quotient_ok _ _ M2 L1 LU Y1) as (y & -> & Ey). destruct (quotient_ok _ _ M3 L1 LU Z1) as (z & -> & Ez).
  assert (0 < l) as LP by (eapply Qclt_le_trans; [|exact L1]; reflexivity). assert (l <> 0) as LN by (intros H; rewrite H in LP; discriminate).
  eexists. split; [reflexivity|]. split.
  - destruct (square_near _ _ Ex) as (Ax & Bx). destruct (square_near _ _ Ey) as (Ay & By). destruct (square_near _ _ Ez) as (Az & Bz). unfold unit_in_singles. cbn [vx vy vz].
    set (t := x * x + y * y + z * z). assert (0 < l * l) as LL2 by (apply mul_pos; assumption).
    assert (vx v / l * (vx v / l) + vy v / l * (vy v / l) + vz v / l * (vz v / l) = s / (l * l)) as ES by (unfold s; field; exact LN).
    assert (s / (l * l) * (l * l) = s) as EC by (field; exact LN).
    assert ((1 - u53) * (1 - u53) * (s / (l * l)) <= t) as T1 by (rewrite <- ES; unfold t; clear -Ax Ay Az; revert Ax Ay Az; generalize ((1 - u53) * (1 - u53)); intros; qc_lra).
    assert (t <= (1 + u53) * (1 + u53) * (s / (l * l))) as T2 by (rewrite <- ES; unfold t; clear -Bx By Bz; revert Bx By Bz; generalize ((1 + u53) * (1 + u53)); intros; qc_lra).
    destruct unit_factors as (F1 & F2). assert (0 <= s) as SP by (unfold s; clear -X0 Y0 Z0; qc_lra).
    assert (forall a b, a * (l * l) <= b * (l * l) -> a <= b) as CAN.
    { intros a b H. apply Qcnot_lt_le. intros L. pose proof (mul_pos (a - b) (l * l)) as P. assert (0 < a - b) as AB by (clear -L; qc_lra). specialize (P AB LL2). clear -P H. qc_lra. }
    pose proof (scale_le _ _ _ (lt_le _ _ LL2) T1) as U1. pose proof (scale_le _ _ _ (lt_le _ _ LL2) T2) as U2.
    replace (l * l * ((1 - u53) * (1 - u53) * (s / (l * l)))) with ((1 - u53) * (1 - u53) * (s / (l * l) * (l * l))) in U1 by ring. replace (l * l * ((1 + u53) * (1 + u53) * (s / (l * l)))) with ((1 + u53) * (1 + u53) * (s / (l * l) * (l * l))) in U2 by ring. rewrite EC in U1, U2.
    assert (0 <= 1 - p2 (-21)) as Q3 by (vm_compute; discriminate). assert (0 <= 1 + p2 (-21)) as Q4 by (vm_compute; discriminate).
    pose proof (scale_le _ _ _ Q3 LB) as V1. pose proof (scale_le _ _ _ Q4 LA) as V2. pose proof (scale_le _ _ _ SP F1) as W1. pose proof (scale_le _ _ _ SP F2) as W2.
    split; apply CAN.
    + eapply Qcle_trans; [exact V1|]. rewrite (Qcmult_comm t). eapply Qcle_trans; [|exact U1]. eapply Qcle_trans; [|eapply Qcle_trans; [exact W1|]]; apply eq_le; ring.
    + eapply Qcle_trans; [|exact V2]. rewrite (Qcmult_comm t). eapply Qcle_trans; [exact U2|]. eapply Qcle_trans; [|eapply Qcle_trans; [exact W2|]]; apply eq_le; ring.
  - exists (1 / l). assert (0 < 1 / l) as K.
    { apply Qcnot_le_lt. intros H. assert (1 / l * l = 1) as H1 by (field; exact LN). pose proof (mul_nonneg (- (1 / l)) l ltac:(clear -H; qc_lra) (lt_le _ _ LP)) as H2. assert (0 < 1) by reflexivity. clear -H1 H2 H0. qc_lra. }
    split; [exact K|]. cbn [vx vy vz]. assert (forall a, 1 / l * a = a / l) as C by (intros; field; exact LN). rewrite !C. change (p2 (-53)) with u53. auto.
Qed.
