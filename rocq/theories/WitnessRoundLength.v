(** Vectors whose length is lost. *)
From Coq Require Import List ZArith QArith Qcanon Bool Lia Lqa.
From Verif Require Import Base BaseFacts ModelVec ModelRoundKd ModelRoundLength SpecRound SpecRoundKd SpecRoundCell SpecRoundLength ProofRoundDouble ProofRoundHull ProofRoundFull ProofRoundKd ProofRoundPolygon ProofRoundLength.
Open Scope Qc_scope.

Lemma power_double m : (-1074 <= m <= 960)%Z -> a_double (p2 m).
Proof. intros H. pose proof (full_exact 1 m ltac:(cbn; lia) H) as E. change (ofZ 1) with 1 in E. rewrite Qcmult_1_l in E. exact E. Qed.
Lemma zero_double : a_double 0.
Proof. pose proof (full_exact 0 0 ltac:(cbn; lia) ltac:(lia)) as E. change (ofZ 0) with 0 in E. rewrite Qcmult_0_l in E. exact E. Qed.
Lemma axis_double m : (-1074 <= m <= 960)%Z -> double_point (V3 (p2 m) 0 0).
Proof. intros H. split; [apply power_double, H|]. split; apply zero_double. Qed.
(** 2^64, about 1.8e19: the square of the length is no float *)
Lemma long_vector : exists v, double_point v /\ forall root, flength full_never round_single root v = None.
Proof. exists (V3 (p2 64) 0 0). split; [apply axis_double; lia|]. intros root. unfold flength. assert (match fsq_length full_never (V3 (p2 64) 0 0) with Some s => round_single s | None => None end = None) as E by (vm_compute; reflexivity). destruct (fsq_length _ _); [rewrite E|]; reflexivity. Qed.
(** 2^-76, about 1.3e-23: the square of the length is rounded to 0 *)
Lemma short_vector : exists v, double_point v /\ v <> V3 0 0 0 /\ forall root, sqrtf_spec root -> flength full_never round_single root v = Some 0.
Proof.
  exists (V3 (p2 (-76)) 0 0). split; [apply axis_double; lia|]. split; [intros H; apply (f_equal (fun v => Qcltb 0 (vx v))) in H; vm_compute in H; discriminate|].
  intros root RS. unfold flength. assert (match fsq_length full_never (V3 (p2 (-76)) 0 0) with Some s => match round_single s with Some y => Qceqb y 0 | None => false end | None => false end = true) as E by (vm_compute; reflexivity).
  destruct (fsq_length _ _) as [s|]; [|discriminate]. destruct (round_single s) as [y|]; [|discriminate]. apply Qceqb_iff in E. subst y.
  destruct (RS 0 (Qcle_refl 0)) as (R0 & _ & R). rewrite Qcmult_0_r in R. f_equal.
  destruct (Qclt_le_dec 0 (root 0)) as [L|L]; [|apply Qcle_antisym; assumption]. exfalso. pose proof (mul_pos _ _ L L). qc_lra.
Qed.
Lemma unit_diagonal : double_point (V3 1 1 0) /\ moderate_vector (V3 1 1 0).
Proof.
  assert (a_double 1) as O by (pose proof (power_double 0 ltac:(lia)) as H; rewrite p2_0 in H; exact H).
  split; [split; [exact O|]; split; [exact O|apply zero_double]|].
  assert (moderate 1) as M by (right; split; vm_compute; discriminate). split; [exact M|]. split; [exact M|]. split; [left; reflexivity|]. split; vm_compute; discriminate.
Qed.
(** a root of the kind asked for: numerator and denominator scaled by 2^60 and 2^30 *)
Definition some_root (y : Qc) : Qc :=
  let n := Qnum (this y) in let d := Zpos (Qden (this y)) in
  Qc_of_Z (Z.sqrt (n * d * 2 ^ 60)) / Qc_of_Z (d * 2 ^ 30).
Lemma some_root_ok : sqrtf_spec some_root.
Proof.
  intros y Y. unfold some_root. pose proof (frac y) as F. change Qc_of_Z with ofZ. set (d := Zpos (Qden (this y))) in *. set (n := Qnum (this y)) in *. assert (0 < d)%Z as D by reflexivity.
  assert (0 <= n)%Z as N by (unfold Qcle, Qle in Y; cbn in Y; rewrite Z.mul_1_r in Y; exact Y).
  clearbody n d. set (s := Z.sqrt (n * d * 2 ^ 60)). destruct (Z.sqrt_spec (n * d * 2 ^ 60) ltac:(nia)) as (S1 & S2). fold s in S1, S2. pose proof (Z.sqrt_nonneg (n * d * 2 ^ 60)) as S0. fold s in S0. clearbody s.
  set (e := (d * 2 ^ 30)%Z). assert (0 < e)%Z as E by (unfold e; lia).
  assert (0 < ofZ e) as EP by (change 0 with (ofZ 0); apply ofZ_lt, E). assert (0 <= ofZ s) as SP by (change 0 with (ofZ 0); apply ofZ_le, S0).
  assert (ofZ e <> 0) as E0 by (intros H; rewrite H in EP; discriminate).
  set (r := ofZ s / ofZ e). assert (r * ofZ e = ofZ s) as RE by (unfold r; field; exact E0).
  assert (y * (ofZ e * ofZ e) = ofZ (n * d * 2 ^ 60)) as YE.
  { unfold e. rewrite <- ofZ_mul. replace (d * 2 ^ 30 * (d * 2 ^ 30))%Z with (d * (d * 2 ^ 60))%Z by (change (2 ^ 60)%Z with (2 ^ 30 * 2 ^ 30)%Z; ring). rewrite ofZ_mul. rewrite Qcmult_assoc, F, <- ofZ_mul. f_equal. ring. }
  assert (0 < ofZ e * ofZ e) as EE by (apply mul_pos; assumption).
  assert (forall a b, a * (ofZ e * ofZ e) <= b * (ofZ e * ofZ e) -> a <= b) as CAN.
  { intros a b H. apply Qcnot_lt_le. intros L. assert (0 < (a - b) * (ofZ e * ofZ e)) by (apply mul_pos; qc_lra). qc_lra. }
  assert (r * r * (ofZ e * ofZ e) = ofZ (s * s)) as RR by (replace (r * r * (ofZ e * ofZ e)) with ((r * ofZ e) * (r * ofZ e)) by ring; rewrite RE, ofZ_mul; reflexivity).
  split; [|split].
  - apply Qcnot_lt_le. intros L. assert (0 < - r * ofZ e) by (apply mul_pos; qc_lra). qc_lra.
  - apply CAN. rewrite RR. rewrite <- Qcmult_assoc, YE. replace ((1 - p2 (-24)) * (1 - p2 (-24))) with (ofZ ((2 ^ 24 - 1) * (2 ^ 24 - 1)) * p2 (-48)) by (apply Qc_is_canon; vm_compute; reflexivity).
    apply Qcle_trans with (ofZ (2 ^ 48 * (s * s)) * p2 (-48)).
    + rewrite (Qcmult_comm _ (p2 (-48))), <- Qcmult_assoc, <- ofZ_mul, (Qcmult_comm _ (p2 (-48))). apply ProofRound.mul_le_l; [vm_compute; discriminate|]. apply ofZ_le.
      destruct (Z.eq_dec n 0) as [->|N0]; [nia|]. assert (1 <= n * d)%Z by nia. set (q := (n * d * 2 ^ 60)%Z) in *. assert (2 ^ 60 <= q)%Z by (unfold q; lia). clearbody q.
      assert (2 ^ 29 <= s)%Z by nia. nia.
    + rewrite ofZ_mul, (Qcmult_comm (ofZ (2 ^ 48))), <- Qcmult_assoc. replace (ofZ (2 ^ 48) * p2 (-48)) with 1 by (apply Qc_is_canon; vm_compute; reflexivity). rewrite Qcmult_1_r. apply Qcle_refl.
  - apply CAN. rewrite RR. rewrite <- Qcmult_assoc, YE. apply Qcle_trans with (1 * ofZ (n * d * 2 ^ 60)); [rewrite Qcmult_1_l; apply ofZ_le; lia|].
    rewrite !(Qcmult_comm _ (ofZ (n * d * 2 ^ 60))). apply ProofRound.mul_le_l; [change 0 with (ofZ 0); apply ofZ_le; nia|]. vm_compute. discriminate.
Qed.
