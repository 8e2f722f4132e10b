(** The digits numbers are written with. *)
From Coq Require Import List ZArith QArith Qcanon Bool Lia Lqa.
From Verif Require ProofMonomial ProofPolyline ProofSmooth.
From Verif Require Import Base BaseFacts ModelVec ModelStep.
Import ListNotations.
Open Scope Qc_scope.

Lemma pow10_pos k : (0 < pow10 k)%Z.
Proof. induction k; cbn [pow10]; lia. Qed.
Lemma Zpos_Qc z : (0 < z)%Z -> 0 < Qc_of_Z z.
Proof. intros H. apply (proj2 (ProofPolyline.Qc_of_Z_lt 0 z)) in H. exact H. Qed.
Lemma ten_pos e : 0 < ten e.
Proof.
  unfold ten. destruct (0 <=? e)%Z; [apply Zpos_Qc, pow10_pos|]. set (x := Qc_of_Z _). assert (0 < x) as H by (apply Zpos_Qc, pow10_pos).
  destruct (Qclt_le_dec 0 (/ x)) as [|L]; [assumption|]. exfalso. assert (x * / x = 1) as E by (apply Qcmult_inv_r; intros Z; rewrite Z in H; discriminate H).
  assert (x * / x <= 0) as L' by qc_nra. rewrite E in L'. apply L'. reflexivity.
Qed.
Lemma ten_succ e : ten (e + 1) = qc 10 1 * ten e.
Proof.
  unfold ten. destruct (0 <=? e)%Z eqn:H.
  - apply Z.leb_le in H. replace (0 <=? e + 1)%Z with true by (symmetry; apply Z.leb_le; lia). replace (Z.to_nat (e + 1)) with (S (Z.to_nat e)) by lia. cbn [pow10].
    rewrite ProofMonomial.Qc_of_Z_mul. reflexivity.
  - apply Z.leb_gt in H. destruct (Z.to_nat (- e)) as [|k] eqn:K; [lia|]. cbn [pow10]. rewrite ProofMonomial.Qc_of_Z_mul. pose proof (Zpos_Qc _ (pow10_pos k)) as P.
    assert (Qc_of_Z (pow10 k) <> 0) as NZ by (intros Z; rewrite Z in P; discriminate P). change (Qc_of_Z 10) with (qc 10 1).
    assert ((if (0 <=? e + 1)%Z then Qc_of_Z (pow10 (Z.to_nat (e + 1))) else / Qc_of_Z (pow10 (Z.to_nat (- (e + 1))))) = / Qc_of_Z (pow10 k)) as ->.
    { destruct (0 <=? e + 1)%Z eqn:H'; [apply Z.leb_le in H'; replace (Z.to_nat (e + 1)) with O by lia; assert (k = O) as -> by lia; reflexivity|].
      apply Z.leb_gt in H'. replace (Z.to_nat (- (e + 1))) with k by lia. reflexivity. }
    field. split; [exact NZ|discriminate].
Qed.
Lemma ten_5 e : ten e = qc 100000 1 * ten (e - 5).
Proof.
  replace e with (e - 5 + 1 + 1 + 1 + 1 + 1)%Z at 1 by lia. rewrite !ten_succ. rewrite !Qcmult_assoc. f_equal.
Qed.
Lemma exponent_le a : forall fuel e, ten (e - Z.of_nat fuel) <= a -> ten (exponent fuel e a) <= a.
Proof.
  induction fuel as [|fuel IH]; intros e H; cbn [exponent]; [replace (e - Z.of_nat 0)%Z with e in H by lia; exact H|].
  destruct (ten e <=? a) eqn:E; [qcb; assumption|]. apply IH. replace (e - 1 - Z.of_nat fuel)%Z with (e - Z.of_nat (S fuel))%Z by lia. exact H.
Qed.
Lemma pow10_log z : (0 < z)%Z -> (z <= pow10 (Z.to_nat (Z.log2 z + 1)))%Z.
Proof.
  intros H. assert (forall k, 2 ^ Z.of_nat k <= pow10 k)%Z as P.
  { induction k as [|k IH]; [cbn; lia|]. rewrite Nat2Z.inj_succ, Z.pow_succ_r by lia. cbn [pow10]. pose proof (Z.pow_nonneg 2 (Z.of_nat k)). lia. }
  specialize (P (Z.to_nat (Z.log2 z + 1))). pose proof (Z.log2_nonneg z). rewrite Z2Nat.id in P by lia. destruct (Z.log2_spec z H) as [_ Q]. rewrite Z.add_1_r in *. lia.
Qed.

Lemma num_den (m : Qc) : m * Qc_of_Z (QDen (this m)) = Qc_of_Z (Qnum (this m)).
Proof. apply Qc_is_canon. rewrite this_mult, !this_of_Z. destruct (this m) as [a b]. unfold Qeq, Qmult, inject_Z. cbn. lia. Qed.
Lemma round_near m : Qcabs (Qc_of_Z (round_even m) - m) <= qc 1 2.
Proof.
  pose proof (num_den m) as E. unfold round_even. set (n := Qnum (this m)) in *. set (d := QDen (this m)) in *. assert (0 < d)%Z as D by (unfold d; lia).
  set (r := (if (2 * (n mod d) <? d)%Z then _ else _)). assert (- d <= 2 * (r * d - n) <= d)%Z as [R1 R2].
  { pose proof (Z.div_mod n d) as DM. pose proof (Z.mod_pos_bound n d D) as B. unfold r. destruct (2 * (n mod d) <? d)%Z eqn:E1; [apply Z.ltb_lt in E1; nia|apply Z.ltb_ge in E1].
    destruct (d <? 2 * (n mod d))%Z eqn:E2; [apply Z.ltb_lt in E2; nia|apply Z.ltb_ge in E2]. destruct (Z.even (n / d)); nia. }
  clearbody r. apply ProofPolyline.Qc_of_Z_le in R1. apply ProofPolyline.Qc_of_Z_le in R2. pose proof (Zpos_Qc d D) as DP. clearbody n d.
  replace (2 * (r * d - n))%Z with (2 * (r * d) + 2 * - n)%Z in R1, R2 by lia.
  rewrite ProofMonomial.Qc_of_Z_add, !ProofMonomial.Qc_of_Z_mul, !ProofMonomial.Qc_of_Z_opp, <- E in R1.
  rewrite ProofMonomial.Qc_of_Z_add, !ProofMonomial.Qc_of_Z_mul, !ProofMonomial.Qc_of_Z_opp, <- E in R2.
  set (x := Qc_of_Z d) in *. set (y := Qc_of_Z r) in *. change (Qc_of_Z 2) with (qc 2 1) in *. clearbody x y. clear E. apply ProofSmooth.Qcabs_le.
  assert (forall a b, a * x <= b * x -> a <= b) as C. { intros a b H. destruct (Qclt_le_dec b a) as [L|]; [|assumption]. exfalso. qc_nra. }
  assert (qc 1 2 * qc 2 1 = 1) as HH by (apply Qc_is_canon; reflexivity).
  split; apply C; [replace ((y - m) * x) with (qc 1 2 * (qc 2 1 * (y * x) + qc 2 1 * - (m * x))) by (rewrite <- (Qcmult_1_l ((y - m) * x)), <- HH; ring)|
                   replace ((y - m) * x) with (qc 1 2 * (qc 2 1 * (y * x) + qc 2 1 * - (m * x))) by (rewrite <- (Qcmult_1_l ((y - m) * x)), <- HH; ring)].
  all: set (z := qc 2 1 * (y * x) + qc 2 1 * - (m * x)) in *; assert (qc 1 2 = Q2Qc (1#2)) as -> by reflexivity; clearbody z; qc_lra.
Qed.

(** six digits: the value read back is within 5e-6 of the number, relatively *)
Lemma shown_near x : Qcabs (shown x - x) <= qc 5 1000000 * Qcabs x.
Proof.
  unfold shown. destruct (Qceqb x 0) eqn:Z; [qcb; subst; discriminate|]. assert (x <> 0) as NZ by (intros ->; discriminate Z). clear Z. cbv zeta.
  set (q := this (Qcabs x)). set (hi := (Z.log2 (Qnum q) + 1)%Z). set (lo := (Z.log2 (QDen q) + 1)%Z).
  pose proof (num_den (Qcabs x)) as E. fold q in E. pose proof (ProofSmooth.Qcabs_nonneg x) as NN.
  assert (0 < Qcabs x) as PX. { destruct (ProofMinimize.Qcabs_cases x) as [[? E']|[? E']]; rewrite E'; [|qc_lra]. destruct (Qcle_lt_or_eq _ _ H) as [|E'']; [assumption|]. exfalso. apply NZ. congruence. }
  assert (0 < Qnum q)%Z as NP. { unfold Qclt, Qlt in PX. cbn in PX. fold q in PX. lia. }
  assert (ten (- lo) <= Qcabs x) as L.
  { assert (0 < QDen q)%Z as DP by lia. pose proof (pow10_log _ DP) as P. fold lo in P. unfold ten. destruct (0 <=? - lo)%Z eqn:H0; [apply Z.leb_le in H0; unfold lo in H0; pose proof (Z.log2_nonneg (QDen q)); lia|].
    replace (- - lo)%Z with lo by lia. apply ProofPolyline.Qc_of_Z_le in P. pose proof (Zpos_Qc _ DP) as DQ. assert (0 < Qc_of_Z (pow10 (Z.to_nat lo))) as TP by (apply Zpos_Qc, pow10_pos).
    assert (1 <= Qc_of_Z (Qnum q)) as N1 by (change 1 with (Qc_of_Z 1); apply ProofPolyline.Qc_of_Z_le; lia). rewrite <- E in N1. set (t := Qc_of_Z (pow10 (Z.to_nat lo))) in *. set (d := Qc_of_Z (QDen q)) in *. set (a := Qcabs x) in *. clearbody t d a.
    assert (t * / t = 1) as I by (apply Qcmult_inv_r; intros Z; rewrite Z in TP; discriminate TP). set (i := / t) in *. clearbody i. clear - I TP DQ P N1 PX.
    destruct (Qclt_le_dec a i) as [B|]; [|assumption]. exfalso. assert (a * t < 1) as H1 by (rewrite <- I; qc_nra). assert (a * d <= a * t) as H2 by qc_nra. qc_lra. }
  set (e := exponent _ _ _). assert (ten e <= Qcabs x) as T.
  { apply exponent_le. replace (hi - Z.of_nat (Z.to_nat (hi + lo)))%Z with (- lo)%Z; [exact L|]. rewrite Z2Nat.id; [lia|]. unfold hi, lo. pose proof (Z.log2_nonneg (Qnum q)). pose proof (Z.log2_nonneg (QDen q)). lia. }
  clearbody e. rewrite ten_5 in T. pose proof (ten_pos (e - 5)) as TP. set (t := ten (e - 5)) in *. clearbody t. assert (t <> 0) as TN by (intros Z; rewrite Z in TP; discriminate TP).
  pose proof (round_near (x / t)) as R. set (y := Qc_of_Z (round_even (x / t))) in *. clearbody y.
  replace (y * t - x) with ((y - x / t) * t) by (field; exact TN). rewrite ProofSmooth.Qcabs_mul.
  assert (Qcabs t = t) as -> by (destruct (ProofMinimize.Qcabs_cases t) as [[_ ->]|[H _]]; [reflexivity|exfalso; qc_lra]).
  set (r := Qcabs (y - x / t)) in *. set (a := Qcabs x) in *. clearbody r a. clear - R T TP.
  apply Qcle_trans with (qc 1 2 * t); [qc_nra|]. replace (qc 1 2) with (qc 5 1000000 * qc 100000 1) by (apply Qc_is_canon; reflexivity). rewrite <- Qcmult_assoc.
  set (b := qc 100000 1 * t) in *. clearbody b. assert (0 < qc 5 1000000) as P by reflexivity. set (k := qc 5 1000000) in *. clearbody k. qc_nra.
Qed.
