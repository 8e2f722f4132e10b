(** On a grid polygonRelationship2D and SAT2D decide in doubles as in exact arithmetic. *)
From Coq Require Import List ZArith QArith Qcanon Bool Lia Lqa.
From Verif Require Import Base BaseFacts LoopFacts ModelVec ModelAabb ModelPolygon ModelRound ModelNurbs ModelRoundPolygon SpecNurbs SpecPolygon SpecRound SpecRoundHull
  ProofRound ProofRoundDouble ProofRoundHull ProofAabb ProofPolygon ProofSat ProofConvex.
Import ListNotations.
Open Scope Qc_scope.

(** ** rounding to doubles *)
Lemma rd_exists x : x = 0 \/ (p2 (-1022) <= Qcabs x /\ Qcabs x <= p2 1023) -> exists y, round_double x = Some y /\ Qcabs (y - x) <= p2 (-53) * Qcabs x.
Proof.
  intros H. destruct double_rounds as (_ & _ & DR). assert (round_double x <> None) as NN.
  { destruct H as [->|(A & B)]; [discriminate|]. apply double_total; assumption. }
  destruct (round_double x) as [y|] eqn:E; [|congruence]. exists y. split; [reflexivity|]. exact (DR 0%nat x y E).
Qed.
Lemma rd_form x y : round_double x = Some y -> x <> 0 -> exists m, y = ofZ m * p2 (exponent x - 52).
Proof.
  intros E X. unfold round_double in E. destruct (Qceqb_spec x 0) as [->|_]; [congruence|]. cbv zeta in E. destruct (_ <? _)%Z; [discriminate|].
  destruct (Qcltb _ _); [|discriminate]. injection E as E. exists (nearest (x * p2 (52 - exponent x))). symmetry. exact E.
Qed.
Lemma absB x b : Qcabs x <= b -> - b <= x /\ x <= b.
Proof. intros H. pose proof (Qcle_Qcabs x). pose proof (Qcopp_Qcabs x). split; qc_lra. Qed.
Lemma absI x b : - b <= x -> x <= b -> Qcabs x <= b.
Proof. intros. apply Qcabs_case; intros; qc_lra. Qed.
Lemma p2_shift a b : (0 <= b)%Z -> p2 (a + b) = ofZ (2 ^ b) * p2 a.
Proof. intros H. rewrite ofZ_p2 by exact H. rewrite p2_add. ring. Qed.

(** ** the place where an edge crosses a horizontal line *)
Section Crossing.
  Variables (N D k xi e : Z) (t : Qc).
  Hypothesis HE : (-500 <= e <= 480)%Z.
  Hypothesis HD : (0 < D < 2 ^ 26)%Z.
  Hypothesis HN : (Z.abs N <= 2 ^ 26 * D)%Z.
  Hypothesis HX : (Z.abs xi < 2 ^ 25)%Z.
  Hypothesis HK : (Z.abs (k + xi) < 2 ^ 25)%Z.
  Hypothesis HM : (Z.abs (N + xi * D) <= 2 ^ 25 * D)%Z.
  Hypothesis HT : t * ofZ D = ofZ N.

  Lemma dpos : 0 < ofZ D. Proof. change 0 with (ofZ 0). apply ofZ_lt. lia. Qed.
  Lemma div_le a b : a * ofZ D <= b * ofZ D -> a <= b.
  Proof. intros H. apply Qcnot_lt_le. intros L. assert (0 < (a - b) * ofZ D) by (apply mul_pos; [qc_lra|apply dpos]). qc_lra. Qed.
  Lemma t_bound : Qcabs t <= p2 26.
  Proof.
    assert (- (2 ^ 26 * D) <= N <= 2 ^ 26 * D)%Z as (A & B) by lia. apply ofZ_le in A, B.
    replace (- (2 ^ 26 * D))%Z with (0 - 2 ^ 26 * D)%Z in A by lia. rewrite ofZ_sub, ofZ_mul, (ofZ_p2 26) in A by lia. rewrite ofZ_mul, (ofZ_p2 26) in B by lia. change (ofZ 0) with 0 in A.
    apply absI; apply div_le; rewrite HT; qc_lra.
  Qed.
  Lemma tx_bound : Qcabs (t + ofZ xi) <= p2 25.
  Proof.
    assert (- (2 ^ 25 * D) <= N + xi * D <= 2 ^ 25 * D)%Z as (A & B) by lia. apply ofZ_le in A, B.
    replace (- (2 ^ 25 * D))%Z with (0 - 2 ^ 25 * D)%Z in A by lia. rewrite ofZ_sub, ofZ_add, !ofZ_mul, (ofZ_p2 25) in A by lia. rewrite ofZ_add, !ofZ_mul, (ofZ_p2 25) in B by lia. change (ofZ 0) with 0 in A.
    apply absI; apply div_le; rewrite Qcmult_plus_distr_l, HT; qc_lra.
  Qed.
  Lemma small_gap x : 1 <= x * ofZ D -> p2 (-26) < x.
  Proof.
    intros H. apply Qcnot_le_lt. intros L. pose proof dpos. assert (ofZ D < p2 26) as L2 by (rewrite <- (ofZ_p2 26) by lia; apply ofZ_lt; lia).
    assert (x * ofZ D <= p2 (-26) * ofZ D) by (rewrite !(Qcmult_comm _ (ofZ D)); apply mul_le_l; [apply lt_le, dpos|exact L]).
    assert (0 < p2 (-26) * (p2 26 - ofZ D)) by (apply mul_pos; [apply p2_pos|qc_lra]). pose proof (p2_inv (-26)) as I. change (- -26)%Z with 26%Z in I. qc_lra.
  Qed.
  Lemma gap_above j : (j * D < N)%Z -> p2 (-26) < t - ofZ j.
  Proof.
    intros H. apply small_gap. assert (1 <= N - j * D)%Z as L by lia. apply ofZ_le in L. rewrite ofZ_sub, ofZ_mul in L. change (ofZ 1) with 1 in L. rewrite <- HT in L. qc_lra.
  Qed.
  Lemma gap_below j : (N < j * D)%Z -> p2 (-26) < ofZ j - t.
  Proof.
    intros H. apply small_gap. assert (1 <= j * D - N)%Z as L by lia. apply ofZ_le in L. rewrite ofZ_sub, ofZ_mul in L. change (ofZ 1) with 1 in L. rewrite <- HT in L. qc_lra.
  Qed.

  Lemma cross_rounded : exists q s, round_double (t * p2 e) = Some q /\ round_double (q + ofZ xi * p2 e) = Some s /\
    (ofZ (k + xi) * p2 e <? s) = (ofZ (k + xi) * p2 e <? t * p2 e + ofZ xi * p2 e).
  Proof.
    pose proof (p2_pos e) as PU. pose proof t_bound as TB. pose proof tx_bound as TX. set (u := p2 e) in *.
    destruct (Z.eq_dec N (k * D)) as [EQ|NE].
    { (* on the edge *)
      assert (t = ofZ k) as ->.
      { assert (t * ofZ D = ofZ k * ofZ D) as E by (rewrite HT, EQ, ofZ_mul; reflexivity). assert (forall a b, a * ofZ D = b * ofZ D -> a <= b) as K by (intros a b H; apply div_le; rewrite H; apply Qcle_refl). apply Qcle_antisym; apply K; congruence. }
      exists (ofZ k * u), (ofZ (k + xi) * u). split; [apply exact_double; lia|]. split.
      - replace (ofZ k * u + ofZ xi * u) with (ofZ (k + xi) * u) by (rewrite ofZ_add; ring). apply exact_double; lia.
      - f_equal. rewrite ofZ_add. ring. }
    assert (t * u = 0 \/ p2 (e - 26) <= Qcabs (t * u)) as TZ.
    { destruct (Z.eq_dec N 0) as [Z0|Z0].
      - left. rewrite Z0 in HT. destruct (Qcmult_integral _ _ HT) as [->|G]; [ring|]. pose proof dpos. rewrite G in *. discriminate.
      - right. rewrite Qcabs_mul by apply lt_le, PU. replace (e - 26)%Z with (-26 + e)%Z by lia. rewrite p2_add. fold u. rewrite !(Qcmult_comm _ u). apply mul_le_l; [apply lt_le, PU|].
        pose proof (Qcle_Qcabs t). pose proof (Qcopp_Qcabs t). destruct (Z.lt_ge_cases N 0) as [L|L]; [pose proof (gap_below 0 ltac:(lia)) as G|pose proof (gap_above 0 ltac:(lia)) as G]; change (ofZ 0) with 0 in G; apply lt_le; qc_lra. }
    destruct (rd_exists (t * u)) as (q & Eq & Bq).
    { destruct TZ as [TZ|TZ]; [left; exact TZ|right]. split; [apply Qcle_trans with (2 := TZ); apply p2_mono; lia|].
      rewrite Qcabs_mul by apply lt_le, PU. apply Qcle_trans with (p2 26 * u); [rewrite !(Qcmult_comm _ u); apply mul_le_l; [apply lt_le, PU|exact TB]|]. unfold u. rewrite <- p2_add. apply p2_mono. lia. }
    assert (Qcabs (q - t * u) <= p2 (-27) * u) as Bq'.
    { apply Qcle_trans with (1 := Bq). rewrite Qcabs_mul by apply lt_le, PU. replace (-27)%Z with (-53 + 26)%Z by lia. rewrite p2_add. rewrite <- Qcmult_assoc. apply mul_le_l; [apply lt_le, p2_pos|].
      rewrite !(Qcmult_comm _ u). apply mul_le_l; [apply lt_le, PU|exact TB]. }
    assert (q + ofZ xi * u = 0 \/ p2 (e - 78) <= Qcabs (q + ofZ xi * u)) as SZ.
    { assert (exists m, q = ofZ m * p2 (e - 78)) as (m & Em).
      { destruct TZ as [TZ|TZ]; [rewrite TZ in Eq; injection Eq as <-; exists 0%Z; change (ofZ 0) with 0; ring|].
        assert (t * u <> 0) as X by (intros X; rewrite X in TZ; change (Qcabs 0) with 0 in TZ; pose proof (p2_pos (e - 26)); qc_lra).
        destruct (rd_form _ _ Eq X) as (m & ->). destruct (exponent_spec _ X) as (_ & H). assert (e - 26 < exponent (t * u) + 1)%Z as L by (apply p2_lt_inv; eapply Qcle_lt_trans; eassumption).
        set (x := exponent (t * u)) in *. exists (m * 2 ^ (x - 52 - (e - 78)))%Z. rewrite ofZ_mul. replace (x - 52)%Z with (e - 78 + (x - 52 - (e - 78)))%Z at 1 by lia. rewrite p2_shift by lia. ring. }
      assert (u = ofZ (2 ^ 78) * p2 (e - 78)) as EU by (unfold u; replace e with (e - 78 + 78)%Z at 1 by lia; apply p2_shift; lia).
      assert (q + ofZ xi * u = ofZ (m + xi * 2 ^ 78) * p2 (e - 78)) as ES by (rewrite Em, EU, ofZ_add, ofZ_mul; ring).
      rewrite ES. destruct (Z.eq_dec (m + xi * 2 ^ 78) 0) as [Z0|Z0]; [left; rewrite Z0; change (ofZ 0) with 0; ring|right].
      rewrite Qcabs_mul, ofZ_abs by apply lt_le, p2_pos. assert (1 <= Z.abs (m + xi * 2 ^ 78))%Z as L by lia. apply ofZ_le in L. change (ofZ 1) with 1 in L.
      assert (0 <= (ofZ (Z.abs (m + xi * 2 ^ 78)) - 1) * p2 (e - 78)) by (apply mul_nonneg; [qc_lra|apply lt_le, p2_pos]). qc_lra. }
    assert (p2 26 * u = p2 25 * u + p2 25 * u) as H26 by (change 26%Z with (25 + 1)%Z; rewrite p2_step; ring).
    assert (p2 (-26) * u = p2 (-27) * u + p2 (-27) * u) as HM26 by (change (-26)%Z with (-27 + 1)%Z; rewrite p2_step; ring).
    assert (p2 (-27) * u <= p2 25 * u) as HH by (rewrite !(Qcmult_comm _ u); apply mul_le_l; [apply lt_le, PU|apply p2_mono; lia]).
    assert (Qcabs ((t + ofZ xi) * u) <= p2 25 * u) as TXU by (rewrite Qcabs_mul by apply lt_le, PU; rewrite !(Qcmult_comm _ u); apply mul_le_l; [apply lt_le, PU|exact TX]).
    assert (Qcabs (q + ofZ xi * u) <= p2 26 * u) as SB.
    { destruct (absB _ _ Bq') as (B1 & B2). destruct (absB _ _ TXU) as (C1 & C2). apply absI; qc_lra. }
    destruct (rd_exists (q + ofZ xi * u)) as (s & Es & Bs).
    { destruct SZ as [SZ|SZ]; [left; exact SZ|right]. split; [apply Qcle_trans with (2 := SZ); apply p2_mono; lia|].
      apply Qcle_trans with (1 := SB). unfold u. rewrite <- p2_add. apply p2_mono. lia. }
    assert (Qcabs (s - (q + ofZ xi * u)) <= p2 (-27) * u) as Bs'.
    { apply Qcle_trans with (1 := Bs). replace (-27)%Z with (-53 + 26)%Z by lia. rewrite (p2_add (-53)), <- Qcmult_assoc. apply mul_le_l; [apply lt_le, p2_pos|exact SB]. }
    exists q, s. split; [exact Eq|]. split; [exact Es|].
    destruct (absB _ _ Bq') as (B1 & B2). destruct (absB _ _ Bs') as (S1 & S2). rewrite ofZ_add.
    destruct (Z.lt_ge_cases N (k * D)) as [L|L].
    - pose proof (gap_below k L) as G. assert (0 < (ofZ k - t - p2 (-26)) * u) as GU by (apply mul_pos; [qc_lra|exact PU]).
      transitivity false; [|symmetry]; (destruct (Qcltb _ _) eqn:X; [|reflexivity]; exfalso; qcb; qc_lra).
    - pose proof (gap_above k ltac:(lia)) as G. assert (0 < (t - ofZ k - p2 (-26)) * u) as GU by (apply mul_pos; [qc_lra|exact PU]).
      transitivity true; [|symmetry]; (destruct (Qcltb _ _) eqn:X; [reflexivity|]; exfalso; qcb; qc_lra).
  Qed.
End Crossing.

(** ** the operations *)
Lemma abs_mul_lt a b A B : (Z.abs a < A)%Z -> (Z.abs b < B)%Z -> (Z.abs (a * b) < A * B)%Z.
Proof. intros. rewrite Z.abs_mul. apply Z.mul_lt_mono_nonneg; lia. Qed.
Lemma between_abs y yi yj xi xj M :
  (Z.abs xi <= M)%Z -> (Z.abs xj <= M)%Z -> (yi <= y <= yj \/ yj <= y <= yi)%Z -> (Z.abs ((xj - xi) * (y - yi) + xi * (yj - yi)) <= M * Z.abs (yj - yi))%Z.
Proof.
  intros A B H. replace ((xj - xi) * (y - yi) + xi * (yj - yi))%Z with (xj * (y - yi) + xi * (yj - y))%Z by ring.
  apply Z.le_trans with (Z.abs (xj * (y - yi)) + Z.abs (xi * (yj - y)))%Z; [apply Z.abs_triangle|]. rewrite !Z.abs_mul.
  assert (Z.abs (yj - yi) = Z.abs (y - yi) + Z.abs (yj - y))%Z as -> by lia. rewrite Z.mul_add_distr_l.
  apply Z.add_le_mono; apply Z.mul_le_mono_nonneg_r; lia.
Qed.
Lemma ofZ_lt_inv a b : ofZ a < ofZ b -> (a < b)%Z.
Proof. intros H. destruct (Z.lt_ge_cases a b) as [L|L]; [exact L|]. apply ofZ_le in L. exfalso. qc_lra. Qed.
Lemma scaled_le a b u : 0 < u -> ofZ a * u <= ofZ b * u -> (a <= b)%Z.
Proof.
  intros U H. destruct (Z.le_gt_cases a b) as [L|L]; [exact L|]. apply ofZ_lt in L. assert (0 < (ofZ a - ofZ b) * u) by (apply mul_pos; [qc_lra|exact U]). exfalso. qc_lra.
Qed.
Lemma scaled_lt a b u : 0 < u -> ofZ a * u < ofZ b * u -> (a < b)%Z.
Proof.
  intros U H. destruct (Z.lt_ge_cases a b) as [L|L]; [exact L|]. apply ofZ_le in L. assert (0 <= (ofZ a - ofZ b) * u) by (apply mul_nonneg; [qc_lra|apply lt_le, U]). exfalso. qc_lra.
Qed.

Lemma last_mem {A} (P : list A) : forall x d, In (last (x :: P) d) (x :: P).
Proof. induction P as [|y P IH]; intros x d; [left; reflexivity|]. right. apply (IH y d). Qed.

(** quotients by the same number, rounded, are ordered as before *)
Section Quotients.
  Variable zd : Z.
  Hypothesis HD : (0 < zd < 2 ^ 53)%Z.
  Definition quo (z : Z) : Qc := ofZ z / ofZ zd.
  Definition rquo (z : Z) : Qc := match round_double (quo z) with Some q => q | None => 0 end.

  Lemma zd_pos : 0 < ofZ zd. Proof. change 0 with (ofZ 0). apply ofZ_lt. lia. Qed.
  Lemma quo_mul z : quo z * ofZ zd = ofZ z.
  Proof. unfold quo. field. pose proof zd_pos. intros E. rewrite E in H. discriminate. Qed.
  Lemma quo_lt a b : (a < b)%Z -> quo a < quo b.
  Proof.
    intros H. apply Qcnot_le_lt. intros L. apply ofZ_lt in H. rewrite <- (quo_mul a), <- (quo_mul b) in H. assert (0 <= (quo a - quo b) * ofZ zd) by (apply mul_nonneg; [qc_lra|apply lt_le, zd_pos]). qc_lra.
  Qed.
  Lemma quo_small z : (Z.abs z < 2 ^ 52)%Z -> Qcabs (quo z) <= p2 52.
  Proof.
    intros H. assert (forall z, (z < 2 ^ 52)%Z -> quo z <= p2 52) as K.
    { intros y Hy. apply Qcnot_lt_le. intros L. apply ofZ_lt in Hy. rewrite (ofZ_p2 52) in Hy by lia. rewrite <- (quo_mul y) in Hy.
      assert (1 <= ofZ zd) as O by (change 1 with (ofZ 1); apply ofZ_le; lia). pose proof (p2_pos 52).
      assert (0 <= quo y * (ofZ zd - 1)) by (apply mul_nonneg; qc_lra). qc_lra. }
    apply absI; [|apply K; lia]. assert (quo (- z) = - quo z) as E by (unfold quo; replace (- z)%Z with (0 - z)%Z by lia; rewrite ofZ_sub; change (ofZ 0) with 0; field; intros E; pose proof zd_pos as P; rewrite E in P; discriminate).
    pose proof (K (- z)%Z ltac:(lia)) as K1. rewrite E in K1. qc_lra.
  Qed.
  Lemma quo_abs z : Qcabs (quo z) * ofZ zd = ofZ (Z.abs z).
  Proof. rewrite <- (Qcabs_mul (quo z)) by apply lt_le, zd_pos. rewrite quo_mul. apply ofZ_abs. Qed.
  Lemma quo_round z : (Z.abs z < 2 ^ 52)%Z -> round_double (quo z) = Some (rquo z) /\ Qcabs (rquo z - quo z) <= p2 (-53) * Qcabs (quo z).
  Proof.
    intros H. destruct (rd_exists (quo z)) as (y & E & B).
    { destruct (Z.eq_dec z 0) as [->|N]; [left; unfold quo; change (ofZ 0) with 0; unfold Qcdiv; ring|right]. split; [|apply Qcle_trans with (1 := quo_small z H); apply p2_mono; lia].
      apply Qcnot_lt_le. intros L. pose proof (quo_abs z) as A. assert (1 <= Z.abs z)%Z as O by lia. apply ofZ_le in O. change (ofZ 1) with 1 in O.
      assert (ofZ zd <= p2 53) as D53 by (rewrite <- (ofZ_p2 53) by lia; apply ofZ_le; lia).
      assert (0 < (p2 (-1022) - Qcabs (quo z)) * ofZ zd) by (apply mul_pos; [qc_lra|apply zd_pos]).
      assert (p2 (-1022) * ofZ zd <= p2 (-1022) * p2 53) as F by (apply mul_le_l; [apply lt_le, p2_pos|exact D53]). rewrite <- p2_add in F.
      pose proof (p2_mono (-1022 + 53) 0 ltac:(lia)) as G. rewrite p2_0 in G. qc_lra. }
    unfold rquo. rewrite E. split; [reflexivity|exact B].
  Qed.
  Lemma rquo_lt a b : (Z.abs a < 2 ^ 52)%Z -> (Z.abs b < 2 ^ 52)%Z -> (a < b)%Z -> rquo a < rquo b.
  Proof.
    intros A B L. destruct (quo_round a A) as (_ & EA). destruct (quo_round b B) as (_ & EB). destruct (absB _ _ EA) as (A1 & A2). destruct (absB _ _ EB) as (B1 & B2).
    assert (p2 (-53) * (Qcabs (quo a) + Qcabs (quo b)) < quo b - quo a) as K; [|qc_lra].
    apply Qcnot_le_lt. intros G. pose proof zd_pos as P.
    assert (0 <= (p2 (-53) * (Qcabs (quo a) + Qcabs (quo b)) - (quo b - quo a)) * ofZ zd) as F by (apply mul_nonneg; [qc_lra|apply lt_le, P]).
    replace ((p2 (-53) * (Qcabs (quo a) + Qcabs (quo b)) - (quo b - quo a)) * ofZ zd) with (p2 (-53) * (Qcabs (quo a) * ofZ zd + Qcabs (quo b) * ofZ zd) - (quo b * ofZ zd - quo a * ofZ zd)) in F by ring.
    rewrite !quo_abs, !quo_mul, <- ofZ_add, <- ofZ_sub in F.
    assert (Z.abs a + Z.abs b < 2 ^ 53)%Z as S by lia. apply ofZ_lt in S. rewrite (ofZ_p2 53) in S by lia.
    assert (0 < p2 (-53) * (p2 53 - ofZ (Z.abs a + Z.abs b))) by (apply mul_pos; [apply p2_pos|qc_lra]). pose proof (p2_inv (-53)) as I. change (- -53)%Z with 53%Z in I.
    assert (1 <= b - a)%Z as O by lia. apply ofZ_le in O. change (ofZ 1) with 1 in O. qc_lra.
  Qed.
  Lemma rquo_max z : (Z.abs z < 2 ^ 52)%Z -> - p2 53 <= rquo z /\ rquo z <= p2 53.
  Proof.
    intros H. destruct (quo_round z H) as (_ & E). pose proof (quo_small z H) as S. destruct (absB _ _ E) as (A1 & A2). destruct (absB _ _ S) as (S1 & S2).
    assert (p2 (-53) * Qcabs (quo z) <= p2 (-53) * p2 52) as F by (apply mul_le_l; [apply lt_le, p2_pos|exact S]). rewrite <- p2_add in F.
    pose proof (p2_mono (-53 + 52) 52 ltac:(lia)). change 53%Z with (52 + 1)%Z. rewrite p2_step. split; qc_lra.
  Qed.
  (** an order-preserving map and the comparisons *)
  Section Order.
    Variable f : Z -> Qc.
    Hypothesis mono : forall a b, (Z.abs a < 2 ^ 52)%Z -> (Z.abs b < 2 ^ 52)%Z -> (a < b)%Z -> f a < f b.
    Lemma f_ltb a b : (Z.abs a < 2 ^ 52)%Z -> (Z.abs b < 2 ^ 52)%Z -> (f a <? f b) = (a <? b)%Z.
    Proof.
      intros A B. destruct (Z.ltb_spec a b) as [L|L].
      - pose proof (mono a b A B L). destruct (Qcltb (f a) (f b)) eqn:E; [reflexivity|]. qcb. exfalso. qc_lra.
      - destruct (Qcltb (f a) (f b)) eqn:E; [|reflexivity]. qcb. exfalso. destruct (Z.eq_dec a b) as [->|N]; [qc_lra|]. pose proof (mono b a B A ltac:(lia)). qc_lra.
    Qed.
    Lemma f_min a b : (Z.abs a < 2 ^ 52)%Z -> (Z.abs b < 2 ^ 52)%Z -> Qcmin (f a) (f b) = f (Z.min a b).
    Proof.
      intros A B. destruct (Z.lt_trichotomy a b) as [L|[L|L]].
      - rewrite Z.min_l by lia. pose proof (mono a b A B L). pose proof (Qcmin_le_l (f a) (f b)). apply Qcle_antisym; [assumption|]. apply Qcmin_glb; qc_lra.
      - subst b. rewrite Z.min_id. apply Qcle_antisym; [apply Qcmin_le_l|apply Qcmin_glb; apply Qcle_refl].
      - rewrite Z.min_r by lia. pose proof (mono b a B A L). apply Qcle_antisym; [apply Qcmin_le_r|]. apply Qcmin_glb; qc_lra.
    Qed.
    Lemma f_max a b : (Z.abs a < 2 ^ 52)%Z -> (Z.abs b < 2 ^ 52)%Z -> Qcmax (f a) (f b) = f (Z.max a b).
    Proof.
      intros A B. destruct (Z.lt_trichotomy a b) as [L|[L|L]].
      - rewrite Z.max_r by lia. pose proof (mono a b A B L). apply Qcle_antisym; [|apply Qcmax_ge_r]. apply Qcmax_lub; qc_lra.
      - subst b. rewrite Z.max_id. apply Qcle_antisym; [apply Qcmax_lub; apply Qcle_refl|apply Qcmax_ge_l].
      - rewrite Z.max_l by lia. pose proof (mono b a B A L). apply Qcle_antisym; [|apply Qcmax_ge_l]. apply Qcmax_lub; qc_lra.
    Qed.
  End Order.
End Quotients.

Section Grid.
  Variables (fl : nat -> Qc -> option Qc) (e : Z).
  Hypothesis FL : in_doubles fl.
  Hypothesis HE : (-450 <= e <= 450)%Z.
  Notation g := (on_grid e 25).
  Let u := p2 e.

  Lemma upos : 0 < u. Proof. apply p2_pos. Qed.
  Lemma rnd0 x y : round_double x = Some y -> rnd fl 0 x = Ok y.
  Proof. intros H. unfold rnd. destruct FL as (F0 & _). rewrite F0, H. reflexivity. Qed.
  Lemma sub_exact a b : (Z.abs a < 2 ^ 25)%Z -> (Z.abs b < 2 ^ 25)%Z -> rnd fl 0 (ofZ a * u - ofZ b * u) = Ok (ofZ (a - b) * u).
  Proof.
    intros A B. replace (ofZ a * u - ofZ b * u) with (ofZ (a - b) * u) by (rewrite ofZ_sub; ring). apply exact_rnd; [exact FL|lia|lia].
  Qed.

  Lemma grid_crosses p pj pi : g p -> g pj -> g pi -> fcrosses fl p pj pi = Ok (crosses p pj pi).
  Proof.
    intros (i & j & A & B & X & Y) (ij & jj & Aj & Bj & Xj & Yj) (ii & ji & Ai & Bi & Xi & Yi). change (Qc_of_Z ?z) with (ofZ z) in *.
    unfold fcrosses, crosses. destruct (_ || _)%bool eqn:HT; [|reflexivity]. cbn [andb].
    fold u in X, Y, Xj, Yj, Xi, Yi. pose proof upos as PU.
    assert (ji <= j < jj \/ jj <= j < ji)%Z as Hy.
    { apply orb_true_iff in HT. rewrite !andb_true_iff in HT. destruct HT as [(H1 & H2)|(H1 & H2)]; qcb; rewrite Y in H1, H2; rewrite ?Yi, ?Yj in H1; rewrite ?Yi, ?Yj in H2; apply scaled_le in H1; [|exact PU| |exact PU]; apply scaled_lt in H2; try exact PU; [left|right]; lia. }
    rewrite X, Y, Xj, Yj, Xi, Yi.
    rewrite (sub_exact ij ii Aj Ai). cbn [bind]. rewrite (sub_exact j ji B Bi). cbn [bind].
    replace (ofZ (ij - ii) * u * (ofZ (j - ji) * u)) with (ofZ ((ij - ii) * (j - ji)) * p2 (e + e)) by (rewrite ofZ_mul, p2_add; fold u; ring).
    assert (Z.abs ((ij - ii) * (j - ji)) < 2 ^ 52)%Z as PB by (change (2 ^ 52)%Z with (2 ^ 26 * 2 ^ 26)%Z; apply abs_mul_lt; lia).
    rewrite (exact_rnd fl 0 _ (e + e) FL) by lia. cbn [bind].
    rewrite (sub_exact jj ji Bj Bi). cbn [bind].
    assert (ofZ (jj - ji) <> 0) as D0 by (intros E; apply ofZ_inj0 in E; lia).
    assert (u <> 0) as U0 by (intros E; rewrite E in PU; discriminate).
    assert (ofZ (jj - ji) * u <> 0) as DU by (intros E; destruct (Qcmult_integral _ _ E); congruence).
    set (t := ofZ ((ij - ii) * (j - ji)) / ofZ (jj - ji)).
    assert (ofZ ((ij - ii) * (j - ji)) * p2 (e + e) / (ofZ (jj - ji) * u) = t * u) as EQ by (rewrite p2_add; fold u; unfold t; field; split; assumption).
    assert ((ofZ ij * u - ofZ ii * u) * (ofZ j * u - ofZ ji * u) / (ofZ jj * u - ofZ ji * u) = t * u) as EQ2.
    { unfold t. rewrite ofZ_mul, !ofZ_sub. rewrite ofZ_sub in D0. field. split; [exact D0|]. rewrite ofZ_sub in DU. intros E. apply DU. rewrite <- E. ring. }
    rewrite EQ2. unfold fdiv, qdiv. destruct (Qceqb_spec (ofZ (jj - ji) * u) 0) as [E|_]; [congruence|]. cbn [bind]. rewrite EQ.
    assert (exists N D, (0 < D < 2 ^ 26 /\ Z.abs N <= 2 ^ 26 * D /\ Z.abs (N + ii * D) <= 2 ^ 25 * D)%Z /\ t * ofZ D = ofZ N) as (N & D & (HD & HN & HM) & Ht).
    { assert (t * ofZ (jj - ji) = ofZ ((ij - ii) * (j - ji))) as Et by (unfold t; field; exact D0).
      assert (Z.abs ((ij - ii) * (j - ji)) <= 2 ^ 26 * Z.abs (jj - ji))%Z as L1 by (rewrite Z.abs_mul; apply Z.mul_le_mono_nonneg; lia).
      pose proof (between_abs j ji jj ii ij (2 ^ 25) ltac:(lia) ltac:(lia) ltac:(lia)) as L2.
      revert Et L1 L2. generalize ((ij - ii) * (j - ji))%Z. intros N Et L1 L2. destruct (Z.lt_ge_cases ji jj) as [L|L].
      - exists N, (jj - ji)%Z. assert (Z.abs (jj - ji) = jj - ji)%Z as AE by lia. rewrite AE in L1, L2. split; [|exact Et]. split; [lia|]. split; [exact L1|exact L2].
      - exists (- N)%Z, (ji - jj)%Z. assert (Z.abs (jj - ji) = ji - jj)%Z as AE by lia. rewrite AE in L1, L2. split.
        + split; [lia|]. split; [rewrite Z.abs_opp; exact L1|]. replace (- N + ii * (ji - jj))%Z with (- (N + ii * (jj - ji)))%Z by ring. rewrite Z.abs_opp. exact L2.
        + replace (ji - jj)%Z with (0 - (jj - ji))%Z by lia. replace (- N)%Z with (0 - N)%Z by lia. rewrite (ofZ_sub 0 (jj - ji)), (ofZ_sub 0 N), <- Et. change (ofZ 0) with 0. ring. }
    destruct (cross_rounded N D (i - ii) ii e t) as (q & s & E1 & E2 & E3); try assumption; try lia. fold u in E1, E2, E3.
    replace (i - ii + ii)%Z with i in E3 by lia.
    rewrite (rnd0 _ _ E1). cbn [bind]. rewrite (rnd0 _ _ E2). cbn [bind]. rewrite E3. reflexivity.
  Qed.

  Lemma pairs_in (P : list vec2) a b : In (a, b) (prev_pairs P) -> In a P /\ In b P.
  Proof.
    unfold prev_pairs. destruct P as [|x P]; [intros []|]. intros H. split; [|exact (in_combine_r _ _ _ _ H)]. apply in_combine_l in H. destruct H as [<-|H]; [|exact H].
    apply last_mem.
  Qed.
  Lemma next_in (P : list vec2) a b : In (a, b) (next_pairs P) -> In a P /\ In b P.
  Proof.
    unfold next_pairs. destruct P as [|x P]; [intros []|]. intros H. split; [exact (in_combine_l _ _ _ _ H)|]. apply in_combine_r in H. apply in_app_or in H. destruct H as [H|[<-|[]]]; [right; exact H|left; reflexivity].
  Qed.

  Lemma grid_pip P p : (forall x, In x P -> g x) -> g p -> fpoint_in_polygon fl P p = Ok (point_in_polygon P p).
  Proof.
    intros GP Gp. unfold fpoint_in_polygon, point_in_polygon.
    assert (forall E b, (forall a c, In (a, c) E -> g a /\ g c) -> fpip_loop fl p E b = Ok (fold_left (fun inside e => if crosses p (fst e) (snd e) then negb inside else inside) E b)) as K.
    { induction E as [|(a, c) E IH]; intros b G; [reflexivity|]. cbn [fpip_loop fold_left fst snd]. destruct (G a c (or_introl eq_refl)) as (Ga & Gc). rewrite grid_crosses by assumption. cbn [bind].
      apply IH. intros. apply G. right. assumption. }
    apply K. intros a c H. apply pairs_in in H. destruct H. split; apply GP; assumption.
  Qed.
  Lemma grid_all P Q : (forall x, In x P -> g x) -> (forall x, In x Q -> g x) -> fall_inside fl P Q = Ok (forallb (point_in_polygon P) Q).
  Proof.
    intros GP. induction Q as [|q Q IH]; intros GQ; [reflexivity|]. cbn [fall_inside forallb]. rewrite grid_pip by (first [exact GP|apply GQ; left; reflexivity]). cbn [bind].
    destruct (point_in_polygon P q); [|reflexivity]. apply IH. intros x H. apply GQ. right. exact H.
  Qed.

  (** an axis: twice as long *)
  Notation ga := (on_grid e 26).
  Lemma grid_dot b p a : (b <= 26)%Z -> on_grid e b p -> ga a -> exists z, (Z.abs z < 2 * (2 ^ b * 2 ^ 26))%Z /\ v2dot p a = ofZ z * p2 (e + e) /\ fdot2 fl p a = Ok (v2dot p a).
  Proof.
    intros Hb (i & j & A & B & X & Y) (ia & ja & Aa & Ba & Xa & Ya). change (Qc_of_Z ?z) with (ofZ z) in *. unfold fdot2, v2dot. rewrite X, Y, Xa, Ya. fold u.
    assert (forall a b, ofZ a * u * (ofZ b * u) = ofZ (a * b) * p2 (e + e)) as MUL by (intros; rewrite ofZ_mul, p2_add; fold u; ring).
    rewrite !MUL. pose proof (abs_mul_lt i ia _ _ A Aa) as P1. pose proof (abs_mul_lt j ja _ _ B Ba) as P2.
    assert (2 ^ b <= 2 ^ 26)%Z as L by (apply Z.pow_le_mono_r; lia).
    assert (ofZ (i * ia) * p2 (e + e) + ofZ (j * ja) * p2 (e + e) = ofZ (i * ia + j * ja) * p2 (e + e)) as ADD by (rewrite ofZ_add; ring).
    exists (i * ia + j * ja)%Z. split; [revert P1 P2; generalize (i * ia)%Z (j * ja)%Z; intros; lia|]. split; [exact ADD|].
    rewrite (exact_rnd fl 9 _ (e + e) FL), (exact_rnd fl 10 _ (e + e) FL) by (revert P1 P2; generalize (i * ia)%Z (j * ja)%Z; intros; lia). cbn [bind].
    rewrite ADD. apply exact_rnd; [exact FL| |lia]. revert P1 P2. generalize (i * ia)%Z (j * ja)%Z. intros. lia.
  Qed.
  Lemma grid_project P a : (forall x, In x P -> g x) -> ga a -> fproject_polygon fl P a = Ok (project_polygon P a).
  Proof.
    intros GP Ga. unfold fproject_polygon, project_polygon. generalize (DBL_MAX, DBL_LOWEST). revert GP. induction P as [|p P IH]; intros GP mm; [reflexivity|].
    cbn [fproject_loop fold_left]. destruct (grid_dot 25 p a ltac:(lia) (GP p (or_introl eq_refl)) Ga) as (_ & _ & _ & ->). cbn [bind]. apply IH. intros x H. apply GP. right. exact H.
  Qed.
  Lemma grid_diff_x p q : g p -> g q -> rnd fl 0 (ux p - ux q) = Ok (ux p - ux q) /\ exists i, (Z.abs i < 2 ^ 26)%Z /\ ux p - ux q = ofZ i * u.
  Proof.
    intros (i & j & A & B & X & Y) (i' & j' & A' & B' & X' & Y'). change (Qc_of_Z ?z) with (ofZ z) in *. rewrite X, X'. fold u. rewrite (sub_exact i i' A A'). rewrite ofZ_sub. split; [f_equal; ring|].
    exists (i - i')%Z. split; [lia|]. rewrite ofZ_sub. ring.
  Qed.
  Lemma grid_diff_y p q : g p -> g q -> rnd fl 0 (uy p - uy q) = Ok (uy p - uy q) /\ exists i, (Z.abs i < 2 ^ 26)%Z /\ uy p - uy q = ofZ i * u.
  Proof.
    intros (i & j & A & B & X & Y) (i' & j' & A' & B' & X' & Y'). change (Qc_of_Z ?z) with (ofZ z) in *. rewrite Y, Y'. fold u. rewrite (sub_exact j j' B B'). rewrite ofZ_sub. split; [f_equal; ring|].
    exists (j - j')%Z. split; [lia|]. rewrite ofZ_sub. ring.
  Qed.
  Lemma grid_axes P : (forall x, In x P -> g x) -> fedge_axes fl P = Ok (edge_axes P) /\ forall a, In a (edge_axes P) -> ga a.
  Proof.
    intros GP. unfold fedge_axes, edge_axes. assert (forall a b, In (a, b) (next_pairs P) -> g a /\ g b) as G by (intros a b H; apply next_in in H; destruct H; split; apply GP; assumption).
    induction (next_pairs P) as [|(a, b) E IH]; [split; [reflexivity|intros a []]|]. destruct IH as (IH1 & IH2); [intros; apply G; right; assumption|].
    destruct (G a b (or_introl eq_refl)) as (Ga & Gb). destruct (grid_diff_x b a Gb Ga) as (E1 & i & I1 & I2). destruct (grid_diff_y b a Gb Ga) as (E2 & j & J1 & J2).
    cbn [mapM map fst snd]. rewrite E1. cbn [bind]. rewrite E2. cbn [bind]. rewrite IH1. split; [reflexivity|].
    intros x [<-|H]; [|apply IH2, H]. exists (- j)%Z, i. unfold v2sub. cbn [ux uy]. change (Qc_of_Z ?z) with (ofZ z). rewrite I2, J2. fold u. rewrite Z.abs_opp. repeat split; try assumption.
    replace (- j)%Z with (0 - j)%Z by lia. rewrite ofZ_sub. change (ofZ 0) with 0. ring.
  Qed.
  Lemma grid_axis_loop P1 P2 : (forall x, In x P1 -> g x) -> (forall x, In x P2 -> g x) -> forall axes t, (forall a, In a axes -> ga a) ->
    faxis_loop fl P1 P2 t axes = Ok (axis_loop P1 P2 t axes).
  Proof.
    intros G1 G2. induction axes as [|a axes IH]; intros t GA; [reflexivity|]. cbn [faxis_loop axis_loop]. rewrite !grid_project by (first [assumption|apply GA; left; reflexivity]). cbn [bind].
    destruct (negb _); [reflexivity|]. apply IH. intros x H. apply GA. right. exact H.
  Qed.
  Lemma grid_relationship P1 P2 : (forall x, In x P1 -> g x) -> (forall x, In x P2 -> g x) -> fpolygon_relationship fl P1 P2 = Ok (polygon_relationship P1 P2).
  Proof.
    intros G1 G2. unfold fpolygon_relationship, polygon_relationship. destruct (grid_axes P1 G1) as (E1 & A1). destruct (grid_axes P2 G2) as (E2 & A2). rewrite E1, E2. cbn [bind].
    rewrite grid_axis_loop by (first [assumption|intros a H; apply in_app_or in H; destruct H; auto]). cbn [bind].
    destruct (axis_loop _ _ _ _) as [t|]; [|reflexivity]. rewrite !grid_all by assumption. reflexivity.
  Qed.

  (** SAT2D *)
  Lemma grid_v2eq a b : ga a -> ga b -> fv2eq fl a b = Ok (v2eq a b).
  Proof.
    intros (i & j & A & B & X & Y) (i' & j' & A' & B' & X' & Y'). change (Qc_of_Z ?z) with (ofZ z) in *. unfold fv2eq, v2eq. rewrite X, X', Y, Y'. fold u.
    assert (forall a b, (Z.abs a < 2 ^ 26)%Z -> (Z.abs b < 2 ^ 26)%Z -> rnd fl 0 (ofZ a * u - ofZ b * u) = Ok (ofZ a * u - ofZ b * u)) as K.
    { intros a0 b0 Ha Hb. replace (ofZ a0 * u - ofZ b0 * u) with (ofZ (a0 - b0) * u) by (rewrite ofZ_sub; ring). apply exact_rnd; [exact FL|lia|lia]. }
    rewrite (K i i' A A'). cbn [bind]. destruct (Qcabs _ <? DBL_EPS); [|reflexivity]. rewrite (K j j' B B'). reflexivity.
  Qed.
  Lemma grid_contains s v : (forall x, In x s -> ga x) -> ga v -> fcontains_normal fl s v = Ok (contains_normal s v).
  Proof.
    intros GS GV. unfold contains_normal. induction s as [|x s IH]; [reflexivity|]. cbn [fcontains_normal existsb]. rewrite grid_v2eq by (first [exact GV|apply GS; left; reflexivity]). cbn [bind].
    destruct (v2eq x v); [reflexivity|]. apply IH. intros y H. apply GS. right. exact H.
  Qed.
  Lemma wider p : g p -> ga p.
  Proof. intros (i & j & A & B & X & Y). exists i, j. repeat split; try assumption; lia. Qed.

  Lemma grid_sat_project P d : (forall x, In x P -> g x) -> P <> [] -> ga d -> (ux d =? 0) && (uy d =? 0) = false ->
    exists zd a b, (0 < zd < 2 ^ 53)%Z /\ v2dot d d = ofZ zd * p2 (e + e) /\ (Z.abs a < 2 ^ 52)%Z /\ (Z.abs b < 2 ^ 52)%Z /\
      polygon_project P d = (quo zd a, quo zd b) /\ fpolygon_project fl P d = Ok (rquo zd a, rquo zd b).
  Proof.
    intros GP NE Gd NZ. unfold polygon_project, fpolygon_project. rewrite NZ.
    destruct (grid_dot 26 d d ltac:(lia) Gd Gd) as (zd & Hz & Ez & Fz). pose proof (p2_pos (e + e)) as PP.
    assert (0 < zd)%Z as Z0.
    { apply ofZ_lt_inv. change (ofZ 0) with 0. apply Qcnot_le_lt. intros L. assert (0 < v2dot d d) as K; [|rewrite Ez in K; assert (0 <= (0 - ofZ zd) * p2 (e + e)) by (apply mul_nonneg; [qc_lra|apply lt_le, PP]); qc_lra].
      unfold v2dot. apply andb_false_iff in NZ. assert (forall x, 0 <= x * x) as SQ by (intros; qc_nra). assert (forall x, x <> 0 -> 0 < x * x) as SP.
      { intros x Hx. destruct (Qcle_lt_or_eq _ _ (SQ x)) as [H|H]; [exact H|]. symmetry in H. destruct (Qcmult_integral _ _ H); congruence. }
      pose proof (SQ (ux d)). pose proof (SQ (uy d)). destruct NZ as [H1|H1]; qcb; apply SP in H1; qc_lra. }
    assert (0 < zd < 2 ^ 53)%Z as HD by lia.
    assert (forall p, g p -> exists z, (Z.abs z < 2 ^ 52)%Z /\ v2dot p d / v2dot d d = quo zd z /\ forall k, (a <- fdot2 fl p d ;; b <- fdot2 fl d d ;; q <- fdiv fl a b ;; k q) = (k (rquo zd z) : res (Qc * Qc))) as DOT.
    { intros p Gp. destruct (grid_dot 25 p d ltac:(lia) Gp Gd) as (z & H1 & H2 & H3). exists z. split; [lia|].
      assert (ofZ zd <> 0) as N1 by (intros E; apply ofZ_inj0 in E; lia). assert (p2 (e + e) <> 0) as N2 by (intros E; rewrite E in PP; discriminate).
      assert (v2dot p d / v2dot d d = quo zd z) as EQ by (rewrite H2, Ez; unfold quo; field; split; assumption). split; [exact EQ|].
      intros k. rewrite H3, Fz. cbn [bind]. unfold fdiv, qdiv. destruct (Qceqb_spec (v2dot d d) 0) as [E|_].
      { rewrite Ez in E. destruct (Qcmult_integral _ _ E); contradiction. }
      cbn [bind]. rewrite EQ. rewrite (rnd0 _ _ (proj1 (quo_round zd HD z ltac:(lia)))). reflexivity. }
    assert (forall a b, (Z.abs a < 2 ^ 52)%Z -> (Z.abs b < 2 ^ 52)%Z -> (a < b)%Z -> quo zd a < quo zd b) as M1 by (intros; apply quo_lt; assumption).
    pose proof (rquo_lt zd HD) as M2.
    assert (forall L a b, (forall x, In x L -> g x) -> (Z.abs a < 2 ^ 52)%Z -> (Z.abs b < 2 ^ 52)%Z -> exists a' b', (Z.abs a' < 2 ^ 52)%Z /\ (Z.abs b' < 2 ^ 52)%Z /\
      fold_left (fun mm p => let q := v2dot p d / v2dot d d in (Qcmin (fst mm) q, Qcmax (snd mm) q)) L (quo zd a, quo zd b) = (quo zd a', quo zd b') /\
      fsat_project_loop fl d L (rquo zd a, rquo zd b) = Ok (rquo zd a', rquo zd b')) as LOOP.
    { induction L as [|p L IH]; intros a b GL Ha Hb; [exists a, b; repeat split; assumption|]. cbn [fold_left fsat_project_loop fst snd].
      destruct (DOT p (GL p (or_introl eq_refl))) as (z & Hz1 & E1 & E2). rewrite E2. cbv zeta. rewrite E1.
      rewrite (f_min (quo zd) M1), (f_max (quo zd) M1), (f_min (rquo zd) M2), (f_max (rquo zd) M2) by assumption.
      apply IH; [intros x H; apply GL; right; exact H| |]; lia. }
    destruct P as [|p P]; [congruence|]. cbn [fold_left fsat_project_loop fst snd].
    destruct (DOT p (GP p (or_introl eq_refl))) as (z & Hz1 & E1 & E2). rewrite E2. cbv zeta. rewrite E1.
    assert (p2 53 <= DBL_MAX) as BM by (vm_compute; discriminate).
    assert (forall x, - p2 53 <= x -> x <= p2 53 -> Qcmin DBL_MAX x = x /\ Qcmax DBL_LOWEST x = x) as MM.
    { intros x X1 X2. unfold DBL_LOWEST. split; apply Qcle_antisym.
      - apply Qcmin_le_r.
      - apply Qcmin_glb; qc_lra.
      - apply Qcmax_lub; qc_lra.
      - apply Qcmax_ge_r. }
    destruct (absB _ _ (quo_small zd HD z Hz1)) as (Q1 & Q2). pose proof (p2_mono 52 53 ltac:(lia)) as P53.
    destruct (MM (quo zd z)) as (-> & ->); [qc_lra|qc_lra|]. destruct (rquo_max zd HD z Hz1) as (R1 & R2). destruct (MM _ R1 R2) as (-> & ->).
    destruct (LOOP P z z) as (a & b & Ha & Hb & F1 & F2); try assumption; [intros x H; apply GP; right; exact H|].
    exists zd, a, b. repeat split; try assumption; lia.
  Qed.
  Lemma grid_apart A B d : (forall x, In x A -> g x) -> (forall x, In x B -> g x) -> A <> [] -> B <> [] -> ga d ->
    (a <- fpolygon_project fl A d ;; b <- fpolygon_project fl B d ;; Ok (intervals_apart a b)) = Ok (intervals_apart (polygon_project A d) (polygon_project B d)) /\
    exists a b, fpolygon_project fl A d = Ok a /\ fpolygon_project fl B d = Ok b.
  Proof.
    intros GA GB NA NB Gd. destruct ((ux d =? 0) && (uy d =? 0)) eqn:Z.
    { unfold fpolygon_project, polygon_project. rewrite Z. split; [reflexivity|]. eexists. eexists. split; reflexivity. }
    destruct (grid_sat_project A d GA NA Gd Z) as (zd & a1 & b1 & HD & Ed & L1 & L2 & F1 & F2). destruct (grid_sat_project B d GB NB Gd Z) as (zd' & a2 & b2 & _ & Ed' & L3 & L4 & F3 & F4).
    assert (zd' = zd) as ->.
    { pose proof (p2_pos (e + e)) as PP. rewrite Ed in Ed'. destruct (Z.lt_trichotomy zd' zd) as [H|[H|H]]; [|exact H|]; apply ofZ_lt in H; exfalso.
      - assert (0 < (ofZ zd - ofZ zd') * p2 (e + e)) by (apply mul_pos; [qc_lra|exact PP]). qc_lra.
      - assert (0 < (ofZ zd' - ofZ zd) * p2 (e + e)) by (apply mul_pos; [qc_lra|exact PP]). qc_lra. }
    rewrite F1, F2, F3, F4. cbn [bind]. split; [|eexists; eexists; split; reflexivity]. f_equal. unfold intervals_apart. cbn [fst snd].
    assert (forall a b, (Z.abs a < 2 ^ 52)%Z -> (Z.abs b < 2 ^ 52)%Z -> (a < b)%Z -> quo zd a < quo zd b) as M1 by (intros; apply quo_lt; assumption).
    pose proof (rquo_lt zd HD) as M2. rewrite (f_ltb (quo zd) M1), (f_ltb (rquo zd) M2) by assumption.
    destruct (b2 <? b1)%Z; cbn [fst snd]; rewrite (f_ltb (quo zd) M1), (f_ltb (rquo zd) M2) by assumption; reflexivity.
  Qed.
  Lemma grid_sat_loop keep A B : (forall x, In x A -> g x) -> (forall x, In x B -> g x) -> A <> [] -> B <> [] ->
    forall edges normals, (forall a b, In (a, b) edges -> g a /\ g b) -> (forall x, In x normals -> ga x) ->
    fsat_loop fl keep A B normals edges = Ok (sat_loop keep A B normals edges).
  Proof.
    intros GA GB NA NB. induction edges as [|(p, q) edges IH]; intros normals GE GN; [reflexivity|]. cbn [fsat_loop sat_loop].
    destruct (GE p q (or_introl eq_refl)) as (Gp & Gq). destruct (grid_diff_y q p Gq Gp) as (E1 & i & I1 & I2). destruct (grid_diff_x p q Gp Gq) as (E2 & j & J1 & J2).
    rewrite E1. cbn [bind]. rewrite E2. cbn [bind]. set (n := V2 _ _). assert (ga n) as Gn by (exists i, j; repeat split; assumption).
    assert (forall a b, In (a, b) edges -> g a /\ g b) as GE' by (intros; apply GE; right; assumption).
    rewrite grid_contains by assumption. cbn [bind]. destruct (contains_normal normals n); [apply IH; assumption|].
    destruct (grid_apart A B n GA GB NA NB Gn) as (H & a & b & Fa & Fb). rewrite Fa, Fb in *. cbn [bind] in *. injection H as ->. destruct (intervals_apart _ _); [reflexivity|].
    apply IH; [exact GE'|]. destruct (keep normals n); [|exact GN]. intros x [<-|Hx]; [exact Gn|apply GN, Hx].
  Qed.
  Lemma grid_sat keep A B : (forall x, In x A -> g x) -> (forall x, In x B -> g x) -> fsat2d fl keep A B = sat2d keep A B.
  Proof.
    intros GA GB. assert (forall P a b, (forall x, In x P -> g x) -> In (a, b) (next_pairs P) -> g a /\ g b) as NP by (intros P a b GP H; apply next_in in H; destruct H; split; apply GP; assumption).
    assert (A <> [] -> B <> [] -> forall edges, (forall a b, In (a, b) edges -> g a /\ g b) -> fsat_loop fl keep A B [] edges = Ok (sat_loop keep A B [] edges)) as K by (intros NA NB edges GE; apply grid_sat_loop; try assumption; intros x []).
    unfold fsat2d, sat2d. destruct A as [|a A]; [reflexivity|]. destruct A as [|a2 A].
    - destruct B as [|b B]; [reflexivity|]. destruct B as [|b2 B].
      + rewrite grid_v2eq by (apply wider; first [apply GB; left; reflexivity|apply GA; left; reflexivity]). reflexivity.
      + apply K; [discriminate|discriminate|]. intros x y H. exact (NP _ x y GB H).
    - destruct B as [|b B]; [reflexivity|]. apply K; [discriminate|discriminate|]. intros x y H. exact (NP _ x y GA H).
  Qed.
  Lemma grid_moderate P : (forall x, In x P -> g x) -> moderate P.
  Proof.
    intros GP. unfold moderate. cbv zeta. intros p Hp. destruct (GP p Hp) as (i & j & A & B & X & Y). change (Qc_of_Z ?z) with (ofZ z) in *. fold u in X, Y.
    assert (forall i, (Z.abs i < 2 ^ 25)%Z -> - ofZ (2 ^ 500) <= ofZ i * u /\ ofZ i * u <= ofZ (2 ^ 500)) as K.
    { intros k Hk. apply absB. rewrite Qcabs_mul, ofZ_abs by apply lt_le, upos. apply ofZ_lt in Hk. rewrite (ofZ_p2 25) in Hk by lia. rewrite (ofZ_p2 500) by lia.
      apply Qcle_trans with (p2 25 * u); [rewrite !(Qcmult_comm _ u); apply mul_le_l; [apply lt_le, upos|apply lt_le, Hk]|]. unfold u. rewrite <- p2_add. apply p2_mono. lia. }
    rewrite X, Y. destruct (K i A), (K j B). repeat split; assumption.
  Qed.
End Grid.

(** ** in the terms of the properties *)
Lemma doubles_pip fl e P p : in_doubles fl -> (-450 <= e <= 450)%Z -> (forall x, In x P -> on_grid e 25 x) -> on_grid e 25 p -> fpoint_in_polygon fl P p = Ok (point_in_polygon P p).
Proof. intros. eapply grid_pip; eassumption. Qed.
Lemma doubles_relationship fl e A B : in_doubles fl -> (-450 <= e <= 450)%Z -> (forall p, In p (A ++ B) -> on_grid e 25 p) -> convex_polygon A -> convex_polygon B ->
  (fpolygon_relationship fl A B = Ok DISTANCE <-> ~ hulls_meet A B) /\
  (fpolygon_relationship fl A B = Ok TOUCH <-> hulls_meet A B /\ exists d, d <> V2 0 0 /\ separates d A B) /\
  (fpolygon_relationship fl A B = Ok INTERSECT <-> hulls_meet A B /\ forall d, d <> V2 0 0 -> ~ separates d A B).
Proof.
  intros FL HE G CA CB. assert (forall x, In x A -> on_grid e 25 x) as GA by (intros; apply G, in_or_app; left; assumption).
  assert (forall x, In x B -> on_grid e 25 x) as GB by (intros; apply G, in_or_app; right; assumption).
  rewrite (grid_relationship fl e FL HE A B GA GB).
  destruct (relationship_convex A B CA CB (grid_moderate e HE A GA) (grid_moderate e HE B GB)) as (H1 & H2 & H3).
  assert (forall x y : relationship, Ok x = Ok y <-> x = y) as INJ by (intros; split; congruence). rewrite !INJ. auto.
Qed.
Lemma doubles_sat fl e keep A B : in_doubles fl -> (-450 <= e <= 450)%Z -> (forall p, In p (A ++ B) -> on_grid e 25 p) -> fsat2d fl keep A B = sat2d keep A B.
Proof.
  intros FL HE G. apply (grid_sat fl e FL HE); intros; apply G, in_or_app; [left|right]; assumption.
Qed.
Lemma doubles_sat_sound fl e keep A B : in_doubles fl -> (-450 <= e <= 450)%Z -> (forall p, In p (A ++ B) -> on_grid e 25 p) ->
  no_repeat A \/ (length A = 1)%nat -> no_repeat B \/ (length B = 1)%nat -> fsat2d fl keep A B = Ok true -> ~ hulls_meet A B.
Proof. intros FL HE G NA NB H. rewrite (doubles_sat fl e keep A B FL HE G) in H. exact (sat_sound keep A B NA NB H). Qed.

(** without rounding *)
Section Unrounded.
  Let fx : nat -> Qc -> option Qc := fun _ => Some.
  Lemma fx_div a b : b <> 0 -> fdiv fx a b = Ok (a / b).
  Proof. intros H. unfold fdiv, qdiv. destruct (Qceqb_spec b 0); [congruence|]. reflexivity. Qed.
  Lemma fx_crosses p pj pi : fcrosses fx p pj pi = Ok (crosses p pj pi).
  Proof.
    unfold fcrosses, crosses. destruct (_ || _)%bool eqn:H; [|reflexivity]. cbn [bind rnd fx andb]. unfold rnd, fx. cbn [bind]. rewrite fx_div; [reflexivity|].
    apply orb_true_iff in H. rewrite !andb_true_iff in H. destruct H as [(H1 & H2)|(H1 & H2)]; qcb; intros E; qc_lra.
  Qed.
  Lemma fx_all P Q : fall_inside fx P Q = Ok (forallb (point_in_polygon P) Q).
  Proof.
    assert (forall p, fpoint_in_polygon fx P p = Ok (point_in_polygon P p)) as K.
    { intros p. unfold fpoint_in_polygon, point_in_polygon. generalize false. induction (prev_pairs P) as [|c E IH]; intros b; [reflexivity|]. cbn [fpip_loop fold_left]. rewrite fx_crosses. apply IH. }
    induction Q as [|q Q IH]; [reflexivity|]. cbn [fall_inside forallb]. rewrite K. cbn [bind]. destruct (point_in_polygon P q); [exact IH|reflexivity].
  Qed.
  Lemma fx_relationship A B : fpolygon_relationship fx A B = Ok (polygon_relationship A B).
  Proof.
    unfold fpolygon_relationship, polygon_relationship.
    assert (forall P, fedge_axes fx P = Ok (edge_axes P)) as AX.
    { intros P. unfold fedge_axes, edge_axes. induction (next_pairs P) as [|c E IH]; [reflexivity|]. cbn [mapM map]. rewrite IH. reflexivity. }
    assert (forall P a, fproject_polygon fx P a = Ok (project_polygon P a)) as PR.
    { intros P a. unfold fproject_polygon, project_polygon. generalize (DBL_MAX, DBL_LOWEST). induction P as [|p P IH]; intros mm; [reflexivity|]. cbn [fproject_loop fold_left]. unfold fdot2, rnd, fx in *. cbn [bind]. apply IH. }
    assert (forall axes t, faxis_loop fx A B t axes = Ok (axis_loop A B t axes)) as LP.
    { induction axes as [|a axes IH]; intros t; [reflexivity|]. cbn [faxis_loop axis_loop]. rewrite !PR. cbn [bind]. destruct (negb _); [reflexivity|]. apply IH. }
    rewrite !AX. cbn [bind]. rewrite LP. cbn [bind]. destruct (axis_loop _ _ _ _) as [t|]; [|reflexivity]. rewrite !fx_all. reflexivity.
  Qed.
  Lemma fx_sat keep A B : fsat2d fx keep A B = sat2d keep A B.
  Proof.
    assert (forall a b, fv2eq fx a b = Ok (v2eq a b)) as EQ by (intros; unfold fv2eq, v2eq, rnd, fx; cbn [bind]; destruct (Qcabs _ <? _); reflexivity).
    assert (forall s v, fcontains_normal fx s v = Ok (contains_normal s v)) as CN.
    { intros s v. unfold contains_normal. induction s as [|x s IH]; [reflexivity|]. cbn [fcontains_normal existsb]. rewrite EQ. cbn [bind]. destruct (v2eq x v); [reflexivity|exact IH]. }
    assert (forall P d, fpolygon_project fx P d = Ok (polygon_project P d)) as PR.
    { intros P d. unfold fpolygon_project, polygon_project. destruct (_ && _)%bool eqn:Z; [reflexivity|]. assert (v2dot d d <> 0) as N.
      { intros E. unfold v2dot in E. assert (forall x, 0 <= x * x) as SQ by (intros; qc_nra). pose proof (SQ (ux d)). pose proof (SQ (uy d)).
        assert (ux d * ux d = 0) as X by qc_lra. assert (uy d * uy d = 0) as Y by qc_lra. apply Qcmult_integral in X, Y. apply andb_false_iff in Z. destruct Z as [Z|Z]; qcb; tauto. }
      generalize (DBL_MAX, DBL_LOWEST). induction P as [|p P IH]; intros mm; [reflexivity|]. cbn [fsat_project_loop fold_left]. unfold fdot2, rnd, fx. cbn [bind].
      fold fx. change (ux d * ux d + uy d * uy d) with (v2dot d d). rewrite fx_div by exact N. cbn [bind]. apply IH. }
    assert (forall edges normals, fsat_loop fx keep A B normals edges = Ok (sat_loop keep A B normals edges)) as LP.
    { induction edges as [|(p, q) edges IH]; intros normals; [reflexivity|]. cbn [fsat_loop sat_loop]. unfold rnd, fx. cbn [bind]. fold fx. rewrite CN. cbn [bind].
      destruct (contains_normal _ _); [apply IH|]. rewrite !PR. cbn [bind]. destruct (intervals_apart _ _); [reflexivity|apply IH]. }
    unfold fsat2d, sat2d. destruct A as [|a [|a2 A]]; [reflexivity| |]; (destruct B as [|b [|b2 B]]; [reflexivity| |]); rewrite ?EQ, ?LP; reflexivity.
  Qed.
End Unrounded.
