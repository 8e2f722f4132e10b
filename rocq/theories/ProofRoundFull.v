(** Rounding to doubles of all sizes: nearest, monotone, idempotent. *)
From Coq Require Import List ZArith QArith Qcanon Bool Lia Lqa.
From Verif Require Import Base BaseFacts ModelVec SpecRound SpecRoundKd ProofRound ProofRoundDouble ProofRoundHull.
Open Scope Qc_scope.

(** the numbers m 2^k with at most 53 bits and steps of at least 2^-1074 *)
Definition dbl (y : Qc) : Prop := exists m k, (Z.abs m <= 2 ^ 53)%Z /\ (-1074 <= k)%Z /\ y = ofZ m * p2 k.

Lemma abs_le a b : - b <= a -> a <= b -> Qcabs a <= b.
Proof. intros. apply Qcabs_case; intros; qc_lra. Qed.
Lemma nearest_best z m : Qcabs (ofZ (nearest z) - z) <= Qcabs (ofZ m - z).
Proof.
  pose proof (nearest_error z) as E. pose proof half_half as HH. set (n := nearest z) in *.
  destruct (Z.eq_dec m n) as [->|N]; [apply Qcle_refl|]. eapply Qcle_trans; [exact E|].
  pose proof (Qcle_Qcabs (ofZ n - z)) as A. pose proof (Qcopp_Qcabs (ofZ n - z)) as B.
  destruct (Z.lt_ge_cases m n) as [L|L].
  - assert (ofZ (m + 1) <= ofZ n) as C by (apply ofZ_le; lia). rewrite ofZ_add in C. change (ofZ 1) with 1 in C.
    eapply Qcle_trans; [|apply Qcopp_Qcabs]. qc_lra.
  - assert (ofZ (n + 1) <= ofZ m) as C by (apply ofZ_le; lia). rewrite ofZ_add in C. change (ofZ 1) with 1 in C.
    eapply Qcle_trans; [|apply Qcle_Qcabs]. qc_lra.
Qed.

Lemma unbounded_eq x : unbounded x = ofZ (nearest (x * p2 (52 - Z.max (exponent x) (-1022)))) * p2 (Z.max (exponent x) (-1022) - 52).
Proof. reflexivity. Qed.
Lemma unbounded_0 : unbounded 0 = 0.
Proof. rewrite unbounded_eq. set (e := Z.max _ _). assert (0 * p2 (52 - e) = ofZ 0) as -> by (change (ofZ 0) with 0; ring). rewrite nearest_int. change (ofZ 0) with 0. ring. Qed.

(** a multiple of the step at x is no nearer than the rounded number *)
Lemma grid_best x m : let e := Z.max (exponent x) (-1022) in Qcabs (unbounded x - x) <= Qcabs (ofZ m * p2 (e - 52) - x).
Proof.
  intros e. rewrite unbounded_eq. fold e. pose proof (p2_inv (52 - e)) as I. replace (- (52 - e))%Z with (e - 52)%Z in I by lia.
  assert (forall w, w * p2 (e - 52) - x = (w - x * p2 (52 - e)) * p2 (e - 52)) as H.
  { intros w. transitivity (w * p2 (e - 52) - x * (p2 (52 - e) * p2 (e - 52))); [rewrite I; ring|ring]. }
  rewrite !H, !Qcabs_mul by apply lt_le, p2_pos. rewrite !(Qcmult_comm _ (p2 (e - 52))). apply mul_le_l; [apply lt_le, p2_pos|]. apply nearest_best.
Qed.

Lemma unbounded_best x d : dbl d -> Qcabs (unbounded x - x) <= Qcabs (d - x).
Proof.
  intros (m & k & Hm & Hk & ->). destruct (Qceqb_spec x 0) as [->|X].
  { rewrite unbounded_0. replace (0 - 0) with 0 by ring. rewrite Qcabs_0. apply Qcabs_nonneg. }
  destruct (exponent_spec x X) as (L & _). pose proof (grid_best x) as G. cbv zeta in G. set (e := Z.max (exponent x) (-1022)) in *.
  destruct (Z.le_gt_cases (e - 52) k) as [H|H].
  - specialize (G (m * 2 ^ (k - (e - 52)))%Z). rewrite ofZ_mul, ofZ_p2 in G by lia.
    rewrite <- Qcmult_assoc, <- p2_add in G. replace (k - (e - 52) + (e - 52))%Z with k in G by lia. exact G.
  - assert (e = exponent x) as Ee by lia. rewrite <- Ee in L.
    assert (Qcabs (ofZ m * p2 k) <= p2 e) as B.
    { rewrite Qcabs_mul, ofZ_abs by apply lt_le, p2_pos. apply Qcle_trans with (p2 53 * p2 k).
      - rewrite <- (ofZ_p2 53) by lia. rewrite !(Qcmult_comm _ (p2 k)). apply mul_le_l; [apply lt_le, p2_pos|]. apply ofZ_le. exact Hm.
      - rewrite <- p2_add. apply p2_mono. lia. }
    pose proof (Qcle_Qcabs (ofZ m * p2 k)) as B1. pose proof (Qcopp_Qcabs (ofZ m * p2 k)) as B2. set (d := ofZ m * p2 k) in *.
    assert (ofZ (2 ^ 52) * p2 (e - 52) = p2 e) as T by (rewrite ofZ_p2 by lia; rewrite <- p2_add; f_equal; lia).
    assert (ofZ (- 2 ^ 52) * p2 (e - 52) = - p2 e) as T' by (rewrite <- T; replace (- 2 ^ 52)%Z with (0 - 2 ^ 52)%Z by reflexivity; rewrite ofZ_sub; change (ofZ 0) with 0; ring).
    revert L. apply Qcabs_case; intros S L.
    + eapply Qcle_trans; [apply (G (2 ^ 52)%Z)|]. rewrite T. eapply Qcle_trans; [|apply Qcopp_Qcabs]. apply abs_le; qc_lra.
    + eapply Qcle_trans; [apply (G (- 2 ^ 52)%Z)|]. rewrite T'. eapply Qcle_trans; [|apply Qcle_Qcabs]. apply abs_le; qc_lra.
Qed.

Lemma unbounded_dbl x : dbl (unbounded x).
Proof.
  destruct (Qceqb_spec x 0) as [->|X].
  { rewrite unbounded_0. exists 0%Z, 0%Z. split; [cbn; lia|]. split; [lia|]. change (ofZ 0) with 0. ring. }
  rewrite unbounded_eq. set (e := Z.max (exponent x) (-1022)). exists (nearest (x * p2 (52 - e))), (e - 52)%Z. split; [|split; [lia|reflexivity]].
  destruct (exponent_spec x X) as (_ & U). pose proof (nearest_error (x * p2 (52 - e))) as N. pose proof half_half as HH.
  assert (Qcabs (x * p2 (52 - e)) < p2 53) as B.
  { rewrite Qcabs_mul by apply lt_le, p2_pos. apply Qclt_le_trans with (p2 (exponent x + 1) * p2 (52 - e)).
    - rewrite !(Qcmult_comm _ (p2 (52 - e))). pose proof (p2_pos (52 - e)). assert (0 < p2 (52 - e) * (p2 (exponent x + 1) - Qcabs x)) by (apply mul_pos; [assumption|qc_lra]). qc_lra.
    - rewrite <- p2_add. apply p2_mono. lia. }
  rewrite <- (ofZ_p2 53) in B by lia. set (z := x * p2 (52 - e)) in *. set (n := nearest z) in *.
  pose proof (Qcle_Qcabs z). pose proof (Qcopp_Qcabs z). pose proof (Qcle_Qcabs (ofZ n - z)). pose proof (Qcopp_Qcabs (ofZ n - z)).
  assert (half < 1) as HL1 by reflexivity.
  destruct (Z.le_gt_cases (Z.abs n) (2 ^ 53)) as [K|K]; [exact K|]. exfalso.
  destruct (Z.le_gt_cases 0 n) as [S|S].
  - assert (ofZ (2 ^ 53 + 1) <= ofZ n) as C by (apply ofZ_le; lia). rewrite ofZ_add in C. change (ofZ 1) with 1 in C. qc_lra.
  - assert (ofZ n <= ofZ (0 - (2 ^ 53 + 1))) as C by (apply ofZ_le; lia). rewrite ofZ_sub, ofZ_add in C. change (ofZ 1) with 1 in C. change (ofZ 0) with 0 in C. qc_lra.
Qed.

Lemma unbounded_id d : dbl d -> unbounded d = d.
Proof.
  intros D. pose proof (unbounded_best d d D) as H. replace (d - d) with 0 in H by ring. rewrite Qcabs_0 in H.
  pose proof (Qcle_Qcabs (unbounded d - d)). pose proof (Qcopp_Qcabs (unbounded d - d)). qc_lra.
Qed.

Lemma unbounded_mono x y : x <= y -> unbounded x <= unbounded y.
Proof.
  intros H. destruct (Qclt_le_dec (unbounded y) (unbounded x)) as [C|C]; [|exact C]. exfalso.
  destruct (Qcle_lt_or_eq _ _ H) as [L|E]; [|rewrite E in C; qc_lra].
  pose proof (unbounded_best x _ (unbounded_dbl y)) as A. pose proof (unbounded_best y _ (unbounded_dbl x)) as B.
  set (a := unbounded x) in *. set (b := unbounded y) in *.
  pose proof (Qcle_Qcabs (a - x)). pose proof (Qcopp_Qcabs (b - y)).
  revert A B. apply (Qcabs_case (b - x)); apply (Qcabs_case (a - y)); intros S1 S2 A B; qc_lra.
Qed.
