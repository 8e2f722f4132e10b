(** Rounding to doubles meets the standard model; simpler forms of the error bounds. *)
From Coq Require Import List ZArith QArith Qcanon Qpower Bool Lia Lqa.
From Verif Require Import Base BaseFacts ModelVec SpecRound ProofRound.
Open Scope Qc_scope.

Lemma mul_pos a b : 0 < a -> 0 < b -> 0 < a * b.
Proof. intros. qc_nra. Qed.

(** ** powers of two *)
Lemma p2_pos k : 0 < p2 k.
Proof. unfold p2, Qclt. cbn [this Q2Qc]. rewrite !Qred_correct. apply Qpower_0_lt. reflexivity. Qed.
Lemma p2_add a b : p2 (a + b) = p2 a * p2 b.
Proof.
  unfold p2. apply Qc_is_canon. unfold Qcmult. cbn [this Q2Qc]. rewrite !Qred_correct. apply Qpower_plus. discriminate.
Qed.
Lemma p2_0 : p2 0 = 1. Proof. apply Qc_is_canon. reflexivity. Qed.
Lemma p2_inv k : p2 k * p2 (- k) = 1.
Proof. rewrite <- p2_add. replace (k + - k)%Z with 0%Z by lia. exact p2_0. Qed.
Lemma p2_step k : p2 (k + 1) = p2 k + p2 k.
Proof. rewrite p2_add. replace (p2 1) with (1 + 1); [ring|]. apply Qc_is_canon. reflexivity. Qed.
Lemma p2_mono a b : (a <= b)%Z -> p2 a <= p2 b.
Proof.
  intros H. replace b with (a + Z.of_nat (Z.to_nat (b - a)))%Z by lia. generalize (Z.to_nat (b - a)). clear.
  induction n as [|n IH]; [rewrite Z.add_0_r; apply Qcle_refl|].
  replace (a + Z.of_nat (S n))%Z with (a + Z.of_nat n + 1)%Z by lia. rewrite p2_step. pose proof (p2_pos (a + Z.of_nat n)). qc_lra.
Qed.
Definition ofZ (z : Z) : Qc := Q2Qc (inject_Z z).
Lemma ofZ_p2 k : (0 <= k)%Z -> ofZ (2 ^ k) = p2 k.
Proof. intros H. unfold ofZ, p2. apply Qc_is_canon. cbn [this Q2Qc]. rewrite !Qred_correct. apply Zpower_Qpower, H. Qed.
Lemma ofZ_le a b : (a <= b)%Z -> ofZ a <= ofZ b.
Proof. intros H. unfold ofZ, Qcle. cbn [this Q2Qc]. rewrite !Qred_correct. rewrite <- Zle_Qle. exact H. Qed.
Lemma ofZ_lt a b : (a < b)%Z -> ofZ a < ofZ b.
Proof. intros H. unfold ofZ, Qclt. cbn [this Q2Qc]. rewrite !Qred_correct. rewrite <- Zlt_Qlt. exact H. Qed.

(** a number is its numerator over its denominator *)
Lemma frac x : x * ofZ (Zpos (Qden (this x))) = ofZ (Qnum (this x)).
Proof.
  apply Qc_is_canon. unfold Qcmult, ofZ. cbn [this Q2Qc]. rewrite !Qred_correct. destruct (this x) as [n d]. cbn [Qnum Qden].
  unfold Qeq, inject_Z, Qmult. cbn [Qnum Qden]. lia.
Qed.

(** ** the nearest integer *)
Definition half : Qc := Q2Qc (1 # 2).
Lemma half_half : half + half = 1. Proof. apply Qc_is_canon. reflexivity. Qed.
Lemma nearest_error y : Qcabs (ofZ (nearest y) - y) <= half.
Proof.
  pose proof (frac y) as F. unfold nearest. set (n := Qnum (this y)) in *. set (d := Zpos (Qden (this y))) in *.
  assert (0 < d)%Z as D by reflexivity. pose proof (Z.div_mod n d ltac:(lia)) as E. pose proof (Z.mod_pos_bound n d D) as R.
  set (q := (n / d)%Z) in *. set (r := (n mod d)%Z) in *.
  assert (forall m, (- d <= 2 * (m * d - n) <= d)%Z -> Qcabs (ofZ m - y) <= half) as K.
  { intros m (A & B). apply ofZ_le in A. apply ofZ_le in B.
    assert (forall a b, ofZ (a * b) = ofZ a * ofZ b) as MUL.
    { intros a b. apply Qc_is_canon. unfold Qcmult, ofZ. cbn [this Q2Qc]. rewrite !Qred_correct, inject_Z_mult. reflexivity. }
    assert (forall a b, ofZ (a - b) = ofZ a - ofZ b) as SUB.
    { intros a b. apply Qc_is_canon. unfold Qcminus, Qcplus, Qcopp, ofZ. cbn [this Q2Qc]. rewrite !Qred_correct.
      unfold Z.sub. rewrite inject_Z_plus, inject_Z_opp. reflexivity. }
    rewrite MUL, SUB, MUL, <- F in A, B. replace (- d)%Z with (0 - d)%Z in A by lia. rewrite SUB in A.
    change (ofZ 2) with (1 + 1) in A, B. change (ofZ 0) with 0 in A.
    assert (0 < ofZ d) as D' by (change 0 with (ofZ 0); apply ofZ_lt, D).
    pose proof half_half. generalize dependent (ofZ d). generalize (ofZ m). generalize dependent half. clear. intros h H m d F A B D.
    assert (m - y <= h). { apply Qcnot_lt_le. intros L. assert (0 < (m - y - h) * d) by (apply mul_pos; [qc_lra|exact D]). assert (h * d + h * d = d) by (rewrite <- Qcmult_plus_distr_l, H; ring). qc_lra. }
    assert (- (m - y) <= h). { apply Qcnot_lt_le. intros L. assert (0 < (- (m - y) - h) * d) by (apply mul_pos; [qc_lra|exact D]). assert (h * d + h * d = d) by (rewrite <- Qcmult_plus_distr_l, H; ring). qc_lra. }
    apply Qcabs_case; intros; assumption. }
  destruct (Z.ltb_spec (2 * r) d); [apply K; lia|]. destruct (Z.eqb_spec (2 * r) d); [destruct (Z.even q); apply K; lia|apply K; lia].
Qed.

(** ** the exponent *)
Lemma exponent_spec x : x <> 0 -> p2 (exponent x) <= Qcabs x /\ Qcabs x < p2 (exponent x + 1).
Proof.
  intros X. unfold exponent. pose proof (frac x) as F. set (n := Qnum (this x)) in *. set (d := Zpos (Qden (this x))) in *.
  assert (0 < d)%Z as D by reflexivity.
  assert (n <> 0%Z) as N.
  { intros E. apply X. rewrite E in F. change (ofZ 0) with 0 in F. assert (0 < ofZ d) by (change 0 with (ofZ 0); apply ofZ_lt, D).
    destruct (Qcmult_integral _ _ F) as [G|G]; [exact G|]. rewrite G in H. discriminate H. }
  assert (Qcabs x * ofZ d = ofZ (Z.abs n)) as F'.
  { assert (0 < ofZ d) as D' by (change 0 with (ofZ 0); apply ofZ_lt, D).
    apply Qcabs_case; intros H.
    - rewrite F. f_equal. assert (0 <= n)%Z; [|lia]. apply Z.nlt_ge. intros L. apply ofZ_lt in L. change (ofZ 0) with 0 in L. rewrite <- F in L. qc_nra.
    - replace (- x * ofZ d) with (- (x * ofZ d)) by ring. rewrite F.
      assert (n <= 0)%Z. { apply Z.nlt_ge. intros L. apply ofZ_lt in L. change (ofZ 0) with 0 in L. rewrite <- F in L. qc_nra. }
      rewrite Z.abs_neq by assumption. apply Qc_is_canon. unfold Qcopp, ofZ. cbn [this Q2Qc]. rewrite !Qred_correct, inject_Z_opp. reflexivity. }
  pose proof (Z.log2_spec (Z.abs n) ltac:(lia)) as (A1 & A2). pose proof (Z.log2_spec d D) as (B1 & B2).
  pose proof (Z.log2_nonneg (Z.abs n)). pose proof (Z.log2_nonneg d). set (a := Z.log2 (Z.abs n)) in *. set (b := Z.log2 d) in *.
  apply ofZ_le in A1, B1. apply ofZ_lt in A2, B2. rewrite ofZ_p2 in A1, A2, B1, B2 by lia. rewrite <- F' in A1, A2.
  replace (Z.succ a) with ((a - b) + 1 + b)%Z in A2 by lia. replace a with (a - b - 1 + (b + 1))%Z in A1 at 1 by lia.
  replace (Z.succ b) with (b + 1)%Z in B2 by lia. rewrite p2_add in A1, A2. set (e := (a - b)%Z) in *.
  pose proof (p2_pos b). pose proof (p2_pos (b + 1)). pose proof (p2_pos (e - 1)). pose proof (p2_pos (e + 1)). pose proof (Qcabs_nonneg x) as Q0.
  assert (p2 (e - 1) <= Qcabs x) as L.
  { apply Qcnot_lt_le. intros G. assert (Qcabs x * ofZ d <= Qcabs x * p2 (b + 1)) by (apply mul_le_l; [exact Q0|apply lt_le, B2]).
    assert (0 < (p2 (e - 1) - Qcabs x) * p2 (b + 1)) by (apply mul_pos; [qc_lra|assumption]). qc_lra. }
  assert (Qcabs x < p2 (e + 1)) as U.
  { apply Qcnot_le_lt. intros G. assert (Qcabs x * p2 b <= Qcabs x * ofZ d) by (apply mul_le_l; [exact Q0|exact B1]).
    assert (p2 (e + 1) * p2 b <= Qcabs x * p2 b) by (rewrite (Qcmult_comm (p2 (e + 1))), (Qcmult_comm (Qcabs x)); apply mul_le_l; [apply lt_le; assumption|exact G]). qc_lra. }
  destruct (Qcltb (Qcabs x) (p2 e)) eqn:T; qcb.
  - split; [exact L|]. replace (e - 1 + 1)%Z with e by lia. assumption.
  - split; assumption.
Qed.

Lemma Qcabs_mul a b : 0 <= b -> Qcabs (a * b) = Qcabs a * b.
Proof.
  intros B. unfold Qcabs. destruct (Qcltb (a * b) 0) eqn:E, (Qcltb a 0) eqn:F; qcb; try ring.
  - exfalso. assert (0 <= a * b) by (apply mul_nonneg; assumption). qc_lra.
  - assert (0 <= - a * b) by (apply mul_nonneg; [qc_lra|assumption]). assert (a * b = 0) as Z by qc_lra.
    replace (- a * b) with (- (a * b)) by ring. rewrite Z. reflexivity.
Qed.

Lemma rounded_by x e : x <> 0 -> e = exponent x -> Qcabs (ofZ (nearest (x * p2 (52 - e))) * p2 (e - 52) - x) <= p2 (-53) * Qcabs x.
Proof.
  intros X ->. destruct (exponent_spec x X) as (L & _). set (e := exponent x) in *.
  pose proof (nearest_error (x * p2 (52 - e))) as N. pose proof (p2_inv (52 - e)) as I. replace (- (52 - e))%Z with (e - 52)%Z in I by lia.
  replace (ofZ (nearest (x * p2 (52 - e))) * p2 (e - 52) - x) with ((ofZ (nearest (x * p2 (52 - e))) - x * p2 (52 - e)) * p2 (e - 52)).
  2:{ transitivity (ofZ (nearest (x * p2 (52 - e))) * p2 (e - 52) - x * (p2 (52 - e) * p2 (e - 52))); [ring|]. rewrite I. ring. }
  rewrite Qcabs_mul by apply lt_le, p2_pos.
  apply Qcle_trans with (half * p2 (e - 52)).
  - rewrite (Qcmult_comm (Qcabs _)), (Qcmult_comm half). apply mul_le_l; [apply lt_le, p2_pos|exact N].
  - replace (half * p2 (e - 52)) with (p2 (-53) * p2 e); [apply mul_le_l; [apply lt_le, p2_pos|exact L]|].
    rewrite <- p2_add. change half with (p2 (-1)). rewrite <- p2_add. f_equal. lia.
Qed.

Lemma Qcabs_0 : Qcabs 0 = 0. Proof. reflexivity. Qed.
Lemma double_rounds : rounds (p2 (-53)) never_fused.
Proof.
  split; [apply lt_le, p2_pos|]. split; [reflexivity|]. intros k x y. unfold never_fused, round_double. destruct (Qceqb_spec x 0) as [->|X].
  - intros E. injection E as <-. replace (0 - 0) with 0 by ring. rewrite Qcabs_0. rewrite Qcmult_0_r. apply Qcle_refl.
  - cbv zeta. destruct (_ <? _)%Z; [discriminate|]. fold (ofZ (nearest (x * p2 (52 - exponent x)))). 
    destruct (Qcltb _ _); [|discriminate]. intros E. assert (ofZ (nearest (x * p2 (52 - exponent x))) * p2 (exponent x - 52) = y) as <- by congruence.
    apply rounded_by; auto.
Qed.

(** in the normal range a double is delivered *)
Lemma double_total x : p2 (-1022) <= Qcabs x -> Qcabs x <= p2 1023 -> round_double x <> None.
Proof.
  intros A B. unfold round_double. destruct (Qceqb_spec x 0) as [->|X]; [discriminate|]. cbv zeta.
  destruct (exponent_spec x X) as (L & U).
  destruct (Z.ltb_spec (exponent x) (-1022)) as [H|H].
  - exfalso. assert (p2 (exponent x + 1) <= p2 (-1022)) by (apply p2_mono; lia).
    eapply Qclt_not_le; [exact U|]. eapply Qcle_trans; eassumption.
  - fold (ofZ (nearest (x * p2 (52 - exponent x)))). pose proof (rounded_by x _ X eq_refl) as R.
    set (y := ofZ _ * _) in *. destruct (Qcltb (Qcabs y) (p2 1024)) eqn:E; [discriminate|]. exfalso. qcb.
    assert (Qcabs y <= Qcabs x + Qcabs (y - x)) as T by (pose proof (Qcle_Qcabs x); pose proof (Qcopp_Qcabs x); pose proof (Qcle_Qcabs (y - x)); pose proof (Qcopp_Qcabs (y - x)); unfold Qcabs at 1; destruct (Qcltb y 0); qc_lra).
    assert (p2 1024 = p2 1023 + p2 1023) as P by (apply (p2_step 1023)).
    assert (p2 (-53) * Qcabs x <= half * p2 1023). { apply mul_le; [apply lt_le, p2_pos|discriminate|apply Qcabs_nonneg|exact B]. }
    assert (half * p2 1023 + half * p2 1023 = p2 1023) by (rewrite <- Qcmult_plus_distr_l, half_half; ring).
    pose proof (p2_pos 1023). qc_lra.
Qed.

(** ** (1 - u)^k >= 1 - k u *)
Definition ofN (k : nat) : Qc := ofZ (Z.of_nat k).
Lemma ofN_S k : ofN (S k) = ofN k + 1.
Proof. unfold ofN, ofZ. apply Qc_is_canon. unfold Qcplus. cbn [this Q2Qc]. rewrite !Qred_correct. rewrite Nat2Z.inj_succ. unfold Z.succ. rewrite inject_Z_plus. reflexivity. Qed.
Lemma ofN_nonneg k : 0 <= ofN k. Proof. change 0 with (ofZ 0). apply ofZ_le. lia. Qed.
Lemma bernoulli u k : 0 <= u -> u < 1 -> 1 - ofN k * u <= (1 - u) ^ k.
Proof.
  intros A B. induction k as [|k IH]; [change ((1 - u) ^ 0) with 1; change (ofN 0) with 0; qc_lra|].
  change ((1 - u) ^ S k) with ((1 - u) * (1 - u) ^ k). rewrite ofN_S. pose proof (ofN_nonneg k).
  assert ((1 - u) * (1 - ofN k * u) <= (1 - u) * (1 - u) ^ k) by (apply mul_le_l; [qc_lra|exact IH]).
  assert (0 <= ofN k * (u * u)) by (apply mul_nonneg; [assumption|apply mul_nonneg; assumption]).
  replace ((1 - u) * (1 - ofN k * u)) with (1 - (ofN k + 1) * u + ofN k * (u * u)) in * by ring. qc_lra.
Qed.

Lemma differs_within u k B x y : 0 <= u -> u < 1 -> 0 <= B -> ofN k * u <= half -> differs_at_most u k B x y ->
  Qcabs (y - x) <= (ofN k * u + ofN k * u) * B.
Proof.
  intros A C B0 H D. unfold differs_at_most in D. pose proof (bernoulli u k A C) as BE. pose proof half_half as HH.
  pose proof (Qcabs_nonneg (y - x)) as Z. set (z := Qcabs (y - x)) in *. set (t := (1 - u) ^ k) in *. set (e := ofN k * u) in *.
  assert (half * z <= t * z) by (rewrite (Qcmult_comm half), (Qcmult_comm t); apply mul_le_l; [exact Z|qc_lra]).
  assert ((1 - t) * B <= e * B) by (rewrite (Qcmult_comm (1 - t)), (Qcmult_comm e); apply mul_le_l; [exact B0|qc_lra]).
  assert (half * z + half * z = z) by (rewrite <- Qcmult_plus_distr_l, HH; ring).
  replace ((e + e) * B) with (e * B + e * B) by ring. qc_lra.
Qed.
Lemma point_differs_within u k B p q : 0 <= u -> u < 1 -> 0 <= B -> ofN k * u <= half -> point_differs_at_most u k B p q ->
  point_within ((ofN k * u + ofN k * u) * B) p q.
Proof. intros A C B0 H (X & Y & Z). unfold point_within. split; [|split]; apply differs_within; assumption. Qed.
