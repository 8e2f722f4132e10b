(** The cross product in double arithmetic. *)
From Coq Require Import List ZArith QArith Qcanon Bool Lia Lqa.
From Verif Require Import Base BaseFacts ModelVec ModelRoundCross SpecRound SpecRoundKd SpecRoundCross ProofRound ProofRoundDouble ProofRoundHull ProofRoundFull ProofRoundKd ProofRoundDist.
Open Scope Qc_scope.

Lemma first_fused_ok : in_all_doubles first_fused.
Proof. split; [reflexivity|]. intros k. unfold first_fused. destruct (Nat.odd k); [right|left]; reflexivity. Qed.

Lemma round_full_opp x : round_full (- x) = match round_full x with Some y => Some (- y) | None => None end.
Proof. unfold round_full. rewrite unbounded_opp, abs_opp. destruct (Qcltb _ _); reflexivity. Qed.
Lemma round_full_0 : round_full 0 = Some 0.
Proof. pose proof (full_exact 0 0 ltac:(cbn; lia) ltac:(lia)) as H. change (ofZ 0) with 0 in H. rewrite Qcmult_0_l in H. exact H. Qed.

Section Unfused.
Variable fl : nat -> Qc -> option Qc.
Hypothesis N : never_fused fl.

Lemma fminor_swap k p q r s : fminor fl k p q r s = match fminor fl k s r q p with Some y => Some (- y) | None => None end.
Proof.
  unfold fminor. rewrite !N, (Qcmult_comm s r), (Qcmult_comm q p). destruct (round_full (p * q)) as [m|], (round_full (r * s)) as [n|]; try reflexivity.
  rewrite !N. replace (m - n) with (- (n - m)) by ring. apply round_full_opp.
Qed.
Lemma fminor_same k p q : fminor fl k p q q p = Some 0 \/ round_full (p * q) = None.
Proof.
  unfold fminor. rewrite !N, (Qcmult_comm q p). destruct (round_full (p * q)) as [m|]; [left|right; reflexivity]. rewrite N. replace (m - m) with 0 by ring. apply round_full_0.
Qed.
Lemma fminor_same_some k p q y : fminor fl k p q q p = Some y -> y = 0.
Proof.
  intros H. destruct (fminor_same k p q) as [E|E]; [congruence|]. unfold fminor in H. rewrite !N, E in H. discriminate.
Qed.
Lemma fcross_self a v : fcross fl a a = Some v -> v = V3 0 0 0.
Proof.
  unfold fcross. intros H. destruct (fminor fl 31 _ _ _ _) as [x|] eqn:X; [|discriminate]. destruct (fminor fl 33 _ _ _ _) as [y|] eqn:Y; [|discriminate]. destruct (fminor fl 35 _ _ _ _) as [z|] eqn:Z; [|discriminate].
  apply fminor_same_some in X, Y, Z. congruence.
Qed.
Lemma fcross_anti a b : match fcross fl a b, fcross fl b a with Some v, Some w => opposite v w | None, None => True | _, _ => False end.
Proof.
  unfold fcross. rewrite (fminor_swap 31 (vy a)), (fminor_swap 33 (vz a)), (fminor_swap 35 (vx a)).
  destruct (fminor fl 31 _ _ _ _) as [x|]; [|exact I]. destruct (fminor fl 33 _ _ _ _) as [y|]; [|exact I]. destruct (fminor fl 35 _ _ _ _) as [z|]; [|exact I]. repeat split.
Qed.
End Unfused.

Lemma fminor_grid fl k e i j m n : in_all_doubles fl -> (-500 <= e <= 450)%Z -> (Z.abs i < 2 ^ 26)%Z -> (Z.abs j < 2 ^ 26)%Z -> (Z.abs m < 2 ^ 26)%Z -> (Z.abs n < 2 ^ 26)%Z ->
  fminor fl k (ofZ i * p2 e) (ofZ j * p2 e) (ofZ m * p2 e) (ofZ n * p2 e) = Some (ofZ i * p2 e * (ofZ j * p2 e) - ofZ m * p2 e * (ofZ n * p2 e)).
Proof.
  intros FL E I J M N. assert (forall u v, ofZ u * p2 e * (ofZ v * p2 e) = ofZ (u * v) * p2 (e + e)) as S by (intros u v; rewrite ofZ_mul, p2_add; ring).
  assert (forall u v, (Z.abs u < 2 ^ 26)%Z -> (Z.abs v < 2 ^ 26)%Z -> (Z.abs (u * v) <= 2 ^ 52)%Z) as B by (intros u v U V; rewrite Z.abs_mul; change (2 ^ 52)%Z with (2 ^ 26 * 2 ^ 26)%Z; apply Z.mul_le_mono_nonneg; lia).
  pose proof (B i j I J) as B1. pose proof (B m n M N) as B2. change (2 ^ 52)%Z with 4503599627370496%Z in *.
  unfold fminor. rewrite !S, !(fl_exact fl) by (try assumption; change (2 ^ 53)%Z with 9007199254740992%Z; lia).
  replace (ofZ (i * j) * p2 (e + e) - ofZ (m * n) * p2 (e + e)) with (ofZ (i * j - m * n) * p2 (e + e)) by (rewrite ofZ_sub; ring).
  apply (fl_exact fl); [assumption|change (2 ^ 53)%Z with 9007199254740992%Z; lia|lia].
Qed.
Lemma fcross_grid fl : in_all_doubles fl -> forall e a b, (-500 <= e <= 450)%Z -> on_grid3 e 26 a -> on_grid3 e 26 b -> fcross fl a b = Some (v3cross a b).
Proof.
  intros FL e a b E (i & j & k & I & J & K & A1 & A2 & A3) (i' & j' & k' & I' & J' & K' & B1 & B2 & B3). unfold fcross, v3cross. rewrite A1, A2, A3, B1, B2, B3.
  change Qc_of_Z with ofZ in *. rewrite !fminor_grid by assumption. reflexivity.
Qed.
