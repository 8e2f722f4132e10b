(** The length of a vector as computed. *)
From Coq Require Import List ZArith QArith Qcanon Bool Lia Lqa.
From Verif Require Import Base BaseFacts ModelVec ModelRoundKd ModelRoundLength SpecRound SpecRoundKd SpecRoundCell SpecRoundLength ProofRound ProofRoundDouble ProofRoundHull ProofRoundFull ProofRoundKd.
Open Scope Qc_scope.

Lemma single_eq x : unbounded_single x = ofZ (nearest (x * p2 (23 - Z.max (exponent x) (-126)))) * p2 (Z.max (exponent x) (-126) - 23).
Proof. reflexivity. Qed.
Lemma rounded_single x e : x <> 0 -> e = exponent x -> Qcabs (ofZ (nearest (x * p2 (23 - e))) * p2 (e - 23) - x) <= p2 (-24) * Qcabs x.
Proof.
  intros X ->. destruct (exponent_spec x X) as (L & _). set (e := exponent x) in *.
  pose proof (nearest_error (x * p2 (23 - e))) as N. pose proof (p2_inv (23 - e)) as I. replace (- (23 - e))%Z with (e - 23)%Z in I by lia.
  replace (ofZ (nearest (x * p2 (23 - e))) * p2 (e - 23) - x) with ((ofZ (nearest (x * p2 (23 - e))) - x * p2 (23 - e)) * p2 (e - 23)).
  2:{ transitivity (ofZ (nearest (x * p2 (23 - e))) * p2 (e - 23) - x * (p2 (23 - e) * p2 (e - 23))); [ring|]. rewrite I. ring. }
  rewrite Qcabs_mul by apply lt_le, p2_pos.
  apply Qcle_trans with (half * p2 (e - 23)).
  - rewrite (Qcmult_comm (Qcabs _)), (Qcmult_comm half). apply mul_le_l; [apply lt_le, p2_pos|exact N].
  - replace (half * p2 (e - 23)) with (p2 (-24) * p2 e); [apply mul_le_l; [apply lt_le, p2_pos|exact L]|].
    rewrite <- p2_add. change half with (p2 (-1)). rewrite <- p2_add. f_equal. lia.
Qed.
Lemma single_rel s : p2 (-126) <= s -> s <= p2 127 - p2 100 -> exists y, round_single s = Some y /\ (1 - p2 (-24)) * s <= y /\ y <= (1 + p2 (-24)) * s.
Proof.
  intros A B. pose proof (p2_pos (-126)) as P. assert (s <> 0) as S0 by (intros ->; qc_lra). assert (Qcabs s = s) as AB by (revert A P; apply Qcabs_case; intros; qc_lra).
  destruct (exponent_spec s S0) as (_ & U). rewrite AB in U.
  assert (-126 <= exponent s)%Z as HE by (assert (p2 (-126) < p2 (exponent s + 1)) as H by qc_lra; apply p2_lt_inv in H; lia).
  pose proof (rounded_single s _ S0 eq_refl) as R. rewrite AB in R. rewrite <- (Z.max_l (exponent s) (-126)) in R by exact HE. rewrite <- single_eq in R.
  set (y := unbounded_single s) in *. pose proof (Qcle_Qcabs (y - s)) as E1. pose proof (Qcopp_Qcabs (y - s)) as E2.
  assert ((1 - p2 (-24)) * s <= y) as L1 by qc_lra. assert (y <= (1 + p2 (-24)) * s) as L2 by qc_lra.
  exists y. split; [|split; assumption]. unfold round_single. fold y. destruct (Qcltb _ _) eqn:F; [reflexivity|]. exfalso. qcb.
  assert (p2 (-24) <= 1) by discriminate. pose proof (p2_pos (-24)) as P24. assert (0 <= (1 - p2 (-24)) * s) by (apply mul_nonneg; qc_lra).
  assert (Qcabs y = y) as AY by (apply Qcabs_case; intros; qc_lra). rewrite AY in F.
  assert (0 <= (1 - p2 (-24)) * s) by assumption. pose proof (p2_step 127) as S. change (127 + 1)%Z with 128%Z in S. pose proof (p2_pos 100). qc_lra.
Qed.
Lemma double_minus_0 fl x : in_all_doubles fl -> a_double x -> fl 0%nat (x - 0) = Some x.
Proof. intros FL D. replace (x - 0) with x by ring. rewrite (proj1 FL). exact D. Qed.
Lemma sq_length_dist fl v : in_all_doubles fl -> double_point v -> fsq_length fl v = fdist_sq3 fl v (V3 0 0 0).
Proof. intros FL (X & Y & Z). unfold fsq_length, fdist_sq3. cbn [vx vy vz]. rewrite !double_minus_0 by assumption. reflexivity. Qed.
Lemma factors : (1 - p2 (-22)) <= (1 - p2 (-24)) * (1 - p2 (-24)) * ((1 - p2 (-24)) * (1 - u53) ^ 5) /\ (1 + p2 (-24)) * (1 + p2 (-24)) * ((1 + p2 (-24)) * (1 + u53) ^ 5) <= 1 + p2 (-22).
Proof. split; vm_compute; discriminate. Qed.
Lemma range : p2 (-126) <= (1 - u53) ^ 5 * p2 (-125) /\ (1 + u53) ^ 5 * p2 126 <= p2 127 - p2 100.
Proof. split; vm_compute; discriminate. Qed.
Lemma eq_le (a b : Qc) : a = b -> a <= b.
Proof. intros ->. apply Qcle_refl. Qed.
Lemma scale_le a b c : 0 <= c -> a <= b -> c * a <= c * b.
Proof. intros C H. apply mul_le_l; assumption. Qed.
Lemma flength_ok : forall fl, in_all_doubles fl -> forall root, sqrtf_spec root -> forall v, double_point v -> moderate_vector v ->
  exists l, flength fl round_single root v = Some l /\ length_in_singles v l.
Proof.
  intros fl FL root RS v D (M1 & M2 & M3 & L & H). unfold flength. rewrite (sq_length_dist fl v FL D).
  assert (moderately_apart v (V3 0 0 0)) as MA by (unfold moderately_apart; cbn [vx vy vz]; replace (vx v - 0) with (vx v) by ring; replace (vy v - 0) with (vy v) by ring; replace (vz v - 0) with (vz v) by ring; auto).
  destruct (dist_within fl v (V3 0 0 0) FL MA) as (s & -> & (W1 & W2)).
  assert (v3distSq v (V3 0 0 0) = vx v * vx v + vy v * vy v + vz v * vz v) as E by (unfold v3distSq, v3sq, v3sub; cbn [vx vy vz]; ring). rewrite E in *. clear E.
  unfold length_in_singles. set (X := vx v * vx v + vy v * vy v + vz v * vz v) in *. clearbody X. destruct range as (R1 & R2). destruct factors as (F1 & F2).
  assert (0 <= (1 - u53) ^ 5) as Q1 by (vm_compute; discriminate). assert (0 <= (1 + u53) ^ 5) as Q2 by (vm_compute; discriminate).
  assert (0 <= 1 - p2 (-24)) as Q3 by (vm_compute; discriminate). assert (0 <= 1 + p2 (-24)) as Q4 by (vm_compute; discriminate).
  pose proof (p2_pos (-125)) as P. pose proof (Qcle_trans _ _ _ (lt_le _ _ P) L) as X0.
  pose proof (scale_le _ _ _ Q1 L) as T1. pose proof (scale_le _ _ _ Q2 H) as T2.
  destruct (single_rel s (Qcle_trans _ _ _ R1 (Qcle_trans _ _ _ T1 W1)) (Qcle_trans _ _ _ W2 (Qcle_trans _ _ _ T2 R2))) as (y & -> & Y1 & Y2).
  pose proof (scale_le _ _ _ Q3 W1) as T3. pose proof (scale_le _ _ _ Q4 W2) as T4. pose proof (mul_nonneg _ _ Q1 X0) as T5. pose proof (mul_nonneg _ _ Q3 T5) as T6.
  pose proof (Qcle_trans _ _ _ T6 (Qcle_trans _ _ _ T3 Y1)) as Y0. destruct (RS y Y0) as (R0 & Ra & Rb). exists (root y). split; [reflexivity|]. split; [exact R0|].
  pose proof (scale_le _ _ _ (mul_nonneg _ _ Q3 Q3) (Qcle_trans _ _ _ T3 Y1)) as T7. pose proof (scale_le _ _ _ (mul_nonneg _ _ Q4 Q4) (Qcle_trans _ _ _ Y2 T4)) as T8.
  pose proof (scale_le _ _ _ X0 F1) as T9. pose proof (scale_le _ _ _ X0 F2) as T10.
  split.
  - eapply Qcle_trans; [|exact Ra]. eapply Qcle_trans; [|exact T7]. rewrite Qcmult_comm. eapply Qcle_trans; [exact T9|]. apply eq_le. ring.
  - eapply Qcle_trans; [exact Rb|]. eapply Qcle_trans; [exact T8|]. rewrite (Qcmult_comm X (1 + p2 (-22))) in T10. eapply Qcle_trans; [|exact T10]. apply eq_le. ring.
Qed.
