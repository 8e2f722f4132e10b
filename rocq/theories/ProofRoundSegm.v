(** The closest point of a segment in double arithmetic. *)
From Coq Require Import List ZArith QArith Qcanon Bool Lia Lqa.
From Verif Require Import Base BaseFacts ModelVec ModelNurbs ModelGjk ModelRoundKd ModelRoundSegm SpecGjk ProofClosest SpecRound SpecRoundKd SpecRoundCell SpecRoundSegm ProofRound ProofRoundDouble ProofRoundHull ProofRoundFull ProofRoundKd ProofRoundPolygon ProofRoundCell.
Import ListNotations.
Open Scope Qc_scope.

Lemma p2_dbl j : (-1074 <= j)%Z -> dbl (p2 j).
Proof. exists 1%Z, j. split; [cbn; lia|]. split; [lia|]. change (ofZ 1) with 1. ring. Qed.
Lemma p2_dbl_neg j : (-1074 <= j)%Z -> dbl (- p2 j).
Proof. exists (-1)%Z, j. split; [cbn; lia|]. split; [lia|]. change (ofZ (-1)) with (- (1)). ring. Qed.
Lemma unbounded_within x j : (-1074 <= j)%Z -> Qcabs x <= p2 j -> Qcabs (unbounded x) <= p2 j.
Proof.
  intros J H. pose proof (Qcle_Qcabs x). pose proof (Qcopp_Qcabs x). apply abs_le.
  - rewrite <- (unbounded_id _ (p2_dbl_neg j J)). apply unbounded_mono. qc_lra.
  - rewrite <- (unbounded_id _ (p2_dbl j J)). apply unbounded_mono. qc_lra.
Qed.
Lemma full_within x j : (-1074 <= j <= 1023)%Z -> Qcabs x <= p2 j -> round_full x = Some (unbounded x).
Proof.
  intros J H. apply unbounded_within in H; [|lia]. unfold round_full. destruct (Qcltb _ _) eqn:E; [reflexivity|]. qcb.
  assert (p2 j <= p2 1023) by (apply p2_mono; lia). pose proof (p2_step 1023) as S. change (1023 + 1)%Z with 1024%Z in S. pose proof (p2_pos 1023). qc_lra.
Qed.
(** the error of one rounding, small numbers included *)
Lemma unbounded_error x : Qcabs x <= p2 1023 -> Qcabs (unbounded x - x) <= u53 * Qcabs x + p2 (-1075).
Proof.
  intros B. pose proof (p2_pos (-1075)) as P. destruct (Qclt_le_dec (Qcabs x) (p2 (-1022))) as [L|L].
  - assert (unbounded x = ofZ (nearest (x * p2 1074)) * p2 (-1074)) as ->.
    { destruct (Qceqb_spec x 0) as [->|X].
      - rewrite unbounded_0. assert (0 * p2 1074 = ofZ 0) as -> by (change (ofZ 0) with 0; ring). rewrite nearest_int. change (ofZ 0) with 0. ring.
      - rewrite unbounded_eq. destruct (exponent_spec x X) as (E & _). assert (exponent x < -1022)%Z by (apply p2_lt_inv; qc_lra). rewrite Z.max_r by lia. reflexivity. }
    pose proof (nearest_error (x * p2 1074)) as E. set (n := ofZ _) in *. pose proof (p2_inv 1074) as I. change (- (1074))%Z with (-1074)%Z in I. pose proof (p2_pos (-1074)) as Q.
    replace (n * p2 (-1074) - x) with ((n - x * p2 1074) * p2 (-1074)) by (replace x with (x * (p2 1074 * p2 (-1074))) at 2 by (rewrite I; ring); ring).
    rewrite Qcabs_mul by qc_lra. pose proof (p2_step (-1075)) as S. change (-1075 + 1)%Z with (-1074)%Z in S. pose proof half_half as HH.
    pose proof u53_pos as U. pose proof (Qcabs_nonneg x) as X0. assert (0 <= u53 * Qcabs x) by (apply mul_nonneg; qc_lra).
    assert (0 <= (half - Qcabs (n - x * p2 1074)) * p2 (-1074)) by (apply mul_nonneg; qc_lra).
    assert (half * p2 (-1074) = p2 (-1075)) by (rewrite S; replace (half * (p2 (-1075) + p2 (-1075))) with ((half + half) * p2 (-1075)) by ring; rewrite HH; ring).
    qc_lra.
  - destruct (full_rel x (or_intror (conj L B))) as (y & E & H). destruct (full_some _ _ E) as (-> & _). qc_lra.
Qed.

Section Doubles.
Variable fl : nat -> Qc -> option Qc.
Hypothesis FL : in_all_doubles fl.

Lemma fl_within k x j : (-1074 <= j <= 1023)%Z -> Qcabs x <= p2 j -> exists y, fl k x = Some y /\ Qcabs y <= p2 j /\ Qcabs (y - x) <= u53 * Qcabs x + p2 (-1075).
Proof.
  intros J H. destruct (proj2 FL k) as [E|E]; rewrite E.
  - exists (unbounded x). rewrite (full_within x j J H). split; [reflexivity|]. split; [apply unbounded_within; [lia|exact H]|]. apply unbounded_error.
    assert (p2 j <= p2 1023) by (apply p2_mono; lia). qc_lra.
  - exists x. split; [reflexivity|]. split; [exact H|]. replace (x - x) with 0 by ring. rewrite Qcabs_0. pose proof u53_pos. pose proof (Qcabs_nonneg x). pose proof (p2_pos (-1075)).
    assert (0 <= u53 * Qcabs x) by (apply mul_nonneg; qc_lra). qc_lra.
Qed.
Lemma abs_mul2 a b i j : Qcabs a <= p2 i -> Qcabs b <= p2 j -> Qcabs (a * b) <= p2 (i + j).
Proof.
  intros A B. rewrite p2_add. pose proof (Qcle_Qcabs a). pose proof (Qcopp_Qcabs a). pose proof (Qcle_Qcabs b). pose proof (Qcopp_Qcabs b).
  revert A B. generalize (p2 i) (p2 j). intros P Q A B. apply abs_le.
  - assert (0 <= (P - a) * (Q + b)) by (apply mul_nonneg; qc_lra). assert (0 <= (P + a) * (Q - b)) by (apply mul_nonneg; qc_lra). qc_nra.
  - assert (0 <= (P - a) * (Q - b)) by (apply mul_nonneg; qc_lra). assert (0 <= (P + a) * (Q + b)) by (apply mul_nonneg; qc_lra). qc_nra.
Qed.
Lemma abs_add a b : Qcabs (a + b) <= Qcabs a + Qcabs b.
Proof. pose proof (Qcle_Qcabs a). pose proof (Qcopp_Qcabs a). pose proof (Qcle_Qcabs b). pose proof (Qcopp_Qcabs b). apply abs_le; qc_lra. Qed.
Lemma abs_add2 a b j : Qcabs a <= p2 j -> Qcabs b <= p2 j -> Qcabs (a + b) <= p2 (j + 1).
Proof. intros. rewrite p2_step. pose proof (abs_add a b). qc_lra. Qed.
Lemma fdot_finite k a b : coords_within (p2 501) a -> coords_within (p2 501) b -> exists s, fdot3 fl k a b = Some s /\ Qcabs s <= p2 1004.
Proof.
  intros (A1 & A2 & A3) (B1 & B2 & B3). unfold fdot3, fplus.
  destruct (fl_within k _ 1002 ltac:(lia) (abs_mul2 _ _ _ _ A1 B1)) as (x & -> & X & _).
  destruct (fl_within (k + 1) _ 1002 ltac:(lia) (abs_mul2 _ _ _ _ A2 B2)) as (y & -> & Y & _).
  destruct (fl_within (k + 2) _ 1002 ltac:(lia) (abs_mul2 _ _ _ _ A3 B3)) as (z & -> & Z & _).
  destruct (fl_within 0 _ 1003 ltac:(lia) (abs_add2 _ _ _ X Y)) as (s & -> & S & _).
  assert (Qcabs z <= p2 1003) as Z' by (assert (p2 1002 <= p2 1003) by (apply p2_mono; lia); qc_lra).
  destruct (fl_within 0 _ 1004 ltac:(lia) (abs_add2 _ _ _ S Z')) as (r & -> & R & _). eauto.
Qed.
Lemma fdiff a b : Qcabs a <= p2 500 -> Qcabs b <= p2 500 -> exists d, fl 0 (b - a) = Some d /\ Qcabs d <= p2 501 /\ Qcabs (d - (b - a)) <= u53 * Qcabs (b - a) + p2 (-1075).
Proof. intros A B. apply fl_within; [lia|]. apply (abs_add2 b (- a) 500); [exact B|]. pose proof (Qcle_Qcabs a). pose proof (Qcopp_Qcabs a). apply abs_le; qc_lra. Qed.
(** the squared length is not lost *)
Lemma diff_large a b d : p2 (-500) <= Qcabs (b - a) -> fl 0 (b - a) = Some d -> p2 (-500) <= Qcabs d.
Proof.
  intros H E. rewrite (proj1 FL) in E. destruct (full_some _ _ E) as (-> & _). revert H. generalize (b - a). intros x. apply Qcabs_case; intros S H.
  - rewrite <- (unbounded_id _ (p2_dbl (-500) ltac:(lia))). pose proof (unbounded_mono _ _ H). pose proof (Qcle_Qcabs (unbounded x)). qc_lra.
  - assert (x <= - p2 (-500)) as H' by qc_lra. apply unbounded_mono in H'. rewrite (unbounded_id _ (p2_dbl_neg (-500) ltac:(lia))) in H'. pose proof (Qcopp_Qcabs (unbounded x)). qc_lra.
Qed.
Lemma fsquare_large k d s : p2 (-500) <= Qcabs d -> fl k (d * d) = Some s -> p2 (-1000) <= s.
Proof.
  intros H E. pose proof (p2_pos (-500)) as P. assert (p2 (-1000) <= d * d) as L.
  { rewrite sq_abs. change (-1000)%Z with (-500 + -500)%Z. rewrite p2_add. revert H P. generalize (Qcabs d) (p2 (-500)). intros c q H P.
    assert (0 <= (c - q) * (c + q)) by (apply mul_nonneg; qc_lra). qc_nra. }
  destruct (proj2 FL k) as [F|F]; rewrite F in E.
  - destruct (full_some _ _ E) as (-> & _). rewrite <- (unbounded_id _ (p2_dbl (-1000) ltac:(lia))). apply unbounded_mono, L.
  - injection E as <-. exact L.
Qed.
Lemma fsquare_nonneg k d s : fl k (d * d) = Some s -> 0 <= s.
Proof. intros E. apply (fl_nonneg fl FL k (d * d) s); [|exact E]. rewrite sq_abs. pose proof (Qcabs_nonneg d). apply mul_nonneg; assumption. Qed.
Lemma fsum_large a b s : fl 0 (a + b) = Some s -> p2 (-1000) <= a + b -> p2 (-1000) <= s.
Proof. intros E L. rewrite (proj1 FL) in E. destruct (full_some _ _ E) as (-> & _). rewrite <- (unbounded_id _ (p2_dbl (-1000) ltac:(lia))). apply unbounded_mono, L. Qed.
Lemma fsq_large k ab s : (p2 (-500) <= Qcabs (vx ab) \/ p2 (-500) <= Qcabs (vy ab) \/ p2 (-500) <= Qcabs (vz ab)) -> fdot3 fl k ab ab = Some s -> 0 < s.
Proof.
  unfold fdot3, fplus. intros H E. pose proof (p2_pos (-1000)) as P.
  destruct (fl k (vx ab * vx ab)) as [x|] eqn:X; [|discriminate]. destruct (fl (k + 1) (vy ab * vy ab)) as [y|] eqn:Y; [|discriminate].
  destruct (fl 0 (x + y)) as [t|] eqn:T; [|discriminate]. destruct (fl (k + 2) (vz ab * vz ab)) as [z|] eqn:Z; [|discriminate].
  pose proof (fsquare_nonneg _ _ _ X). pose proof (fsquare_nonneg _ _ _ Y). pose proof (fsquare_nonneg _ _ _ Z).
  assert (0 <= t) by (apply (fl_nonneg fl FL 0 (x + y)); [qc_lra|exact T]).
  apply Qclt_le_trans with (p2 (-1000)); [exact P|]. apply (fsum_large _ _ _ E).
  destruct H as [H|[H|H]].
  - pose proof (fsquare_large _ _ _ H X). assert (p2 (-1000) <= t) by (apply (fsum_large _ _ _ T); qc_lra). qc_lra.
  - pose proof (fsquare_large _ _ _ H Y). assert (p2 (-1000) <= t) by (apply (fsum_large _ _ _ T); qc_lra). qc_lra.
  - pose proof (fsquare_large _ _ _ H Z). qc_lra.
Qed.
Lemma fratio_some n d : 0 < d -> exists t, fratio01 fl n d = Some t /\ 0 <= t /\ t <= 1.
Proof.
  intros D. unfold fratio01. destruct (Qceqb_spec d 0) as [->|_]; [qc_lra|]. assert (0 < 1) as O by reflexivity. destruct (fl 0 (n / d)) as [t|].
  - eexists. split; [reflexivity|]. destruct (t <? 0) eqn:A; [split; qc_lra|]. destruct (1 <? t) eqn:B; [split; qc_lra|]. qcb. split; assumption.
  - eexists. split; [reflexivity|]. destruct (0 <? n); split; qc_lra.
Qed.
Lemma small_terms : p2 (-50) = qc 8 1 * u53 /\ p2 (-1073) = qc 4 1 * p2 (-1075).
Proof. split; apply Qc_is_canon; vm_compute; reflexivity. Qed.
Lemma error_sum u M h A d E1 E2 E3 : 0 <= u -> u <= qc 1 16 -> 0 <= h -> 0 <= M -> A <= M + M -> E1 <= u * A + h -> d <= A + E1 -> E2 <= u * d + h -> E3 <= u * (M + (d + E2)) + h ->
  E3 + E2 + E1 <= qc 8 1 * u * M + qc 4 1 * h.
Proof.
  intros U U1 H HM HA H1 HD H2 H3.
  assert (0 <= u * (M + M - A)) as P1 by (apply mul_nonneg; qc_lra). assert (0 <= u * M) as P2 by (apply mul_nonneg; assumption).
  assert (0 <= u * (A + E1 - d)) as P3 by (apply mul_nonneg; qc_lra). assert (0 <= u * (u * A + h - E1)) as P4 by (apply mul_nonneg; qc_lra).
  assert (0 <= u * (u * (M + M - A))) as P5 by (apply mul_nonneg; qc_lra). assert (0 <= (qc 1 16 - u) * (u * M)) as P6 by (apply mul_nonneg; qc_lra). assert (0 <= (qc 1 16 - u) * h) as P7 by (apply mul_nonneg; qc_lra).
  assert (0 <= u * (u * d + h - E2)) as P8 by (apply mul_nonneg; qc_lra).
  assert (u * d <= qc 17 8 * (u * M) + qc 1 16 * h) as D.
  { replace (u * (A + E1 - d)) with (u * A + u * E1 - u * d) in P3 by ring. replace (u * (u * A + h - E1)) with (u * (u * A) + u * h - u * E1) in P4 by ring.
    replace (u * (u * (M + M - A))) with (u * (u * M) + u * (u * M) - u * (u * A)) in P5 by ring. replace (u * (M + M - A)) with (u * M + u * M - u * A) in P1 by ring.
    replace ((qc 1 16 - u) * (u * M)) with (qc 1 16 * (u * M) - u * (u * M)) in P6 by ring. replace ((qc 1 16 - u) * h) with (qc 1 16 * h - u * h) in P7 by ring.
    revert P1 P2 P3 P4 P5 P6 P7. generalize (u * A) (u * E1) (u * d) (u * h) (u * M). intros v1 v2 v3 v4 v5. generalize (u * v1) (u * v5). intros. qc_lra. }
  assert (u * E2 <= qc 1 4 * (u * M) + qc 1 4 * h) as E.
  { replace (u * (u * d + h - E2)) with (u * (u * d) + u * h - u * E2) in P8 by ring.
    assert (0 <= u * (qc 17 8 * (u * M) + qc 1 16 * h - u * d)) as P9 by (apply mul_nonneg; qc_lra).
    replace (u * (qc 17 8 * (u * M) + qc 1 16 * h - u * d)) with (qc 17 8 * (u * (u * M)) + qc 1 16 * (u * h) - u * (u * d)) in P9 by ring.
    replace ((qc 1 16 - u) * (u * M)) with (qc 1 16 * (u * M) - u * (u * M)) in P6 by ring. replace ((qc 1 16 - u) * h) with (qc 1 16 * h - u * h) in P7 by ring.
    revert P2 P6 P7 P8 P9. generalize (u * (u * d)) (u * (u * M)) (u * M) (u * h) (u * E2). intros. qc_lra. }
  replace (u * (M + (d + E2))) with (u * M + u * d + u * E2) in H3 by ring. replace (u * (M + M - A)) with (u * M + u * M - u * A) in P1 by ring. replace (qc 8 1 * u * M) with (qc 8 1 * (u * M)) by ring.
  revert P1 P2 H1 H2 H3 D E. generalize (u * A) (u * d) (u * E2) (u * M). intros. qc_lra.
Qed.
Lemma fstep_near k a b d t : Qcabs a <= p2 500 -> Qcabs b <= p2 500 -> fl 0 (b - a) = Some d -> 0 <= t -> t <= 1 -> exists p, fstep fl k a d t = Some p /\ near_at t a b p.
Proof.
  intros A B E T0 T1. destruct (fdiff a b A B) as (d' & E' & D & D1). rewrite E in E'. injection E' as <-. unfold fstep.
  pose proof (Qcabs_nonneg d) as DP. assert (Qcabs (d * t) <= Qcabs d) as DT by (rewrite Qcabs_mul by exact T0; assert (0 <= Qcabs d * (1 - t)) by (apply mul_nonneg; qc_lra); qc_lra).
  destruct (fl_within k (d * t) 501 ltac:(lia) ltac:(qc_lra)) as (e & -> & Ee & E1).
  assert (Qcabs a <= p2 501) as A' by (assert (p2 500 <= p2 501) by (apply p2_mono; lia); qc_lra).
  destruct (fl_within 0 (a + e) 502 ltac:(lia) (abs_add2 a e 501 A' Ee)) as (p & -> & _ & P1). exists p. split; [reflexivity|]. intros M HA HB.
  destruct small_terms as (-> & ->).
  pose proof (abs_add b (- a)) as S1. assert (Qcabs (- a) <= M) by (pose proof (Qcle_Qcabs a); pose proof (Qcopp_Qcabs a); apply abs_le; qc_lra). change (b + - a) with (b - a) in S1.
  pose proof (abs_add (b - a) (d - (b - a))) as S2. replace (b - a + (d - (b - a))) with d in S2 by ring.
  pose proof (abs_add (d * t) (e - d * t)) as S3. replace (d * t + (e - d * t)) with e in S3 by ring.
  pose proof (abs_add a e) as S4. pose proof u53_pos as U. pose proof (p2_pos (-1075)) as H75.
  assert (u53 <= qc 1 16) as U16 by discriminate.
  assert (forall x y, x <= y -> u53 * x <= u53 * y) as UM by (intros x y L; assert (0 <= u53 * (y - x)) by (apply mul_nonneg; qc_lra); qc_lra).
  pose proof (Qcabs_nonneg a) as A0.
  assert (Qcabs (p - (a + e)) + Qcabs (e - d * t) + Qcabs (d - (b - a)) <= qc 8 1 * u53 * M + qc 4 1 * p2 (-1075)) as SUM.
  { apply (error_sum u53 M (p2 (-1075)) (Qcabs (b - a)) (Qcabs d)); try qc_lra.
    - pose proof (UM _ _ DT). qc_lra.
    - assert (Qcabs (a + e) <= M + (Qcabs d + Qcabs (e - d * t))) as L by qc_lra. pose proof (UM _ _ L). qc_lra. }
  replace (p - (a + t * (b - a))) with ((p - (a + e)) + ((e - d * t) + (d - (b - a)) * t)) by ring.
  pose proof (abs_add (p - (a + e)) ((e - d * t) + (d - (b - a)) * t)). pose proof (abs_add (e - d * t) ((d - (b - a)) * t)).
  assert (Qcabs ((d - (b - a)) * t) <= Qcabs (d - (b - a))) by (rewrite Qcabs_mul by exact T0; pose proof (Qcabs_nonneg (d - (b - a))); assert (0 <= Qcabs (d - (b - a)) * (1 - t)) by (apply mul_nonneg; qc_lra); qc_lra).
  qc_lra.
Qed.
End Doubles.

Lemma fclosest_near : forall fl, in_all_doubles fl -> forall a b, coords_within (p2 500) a -> coords_within (p2 500) b -> distinct_enough a b ->
  exists p, fclosest_on_segm fl a b = Point p /\ near_segment a b p.
Proof.
  intros fl FL a b (A1 & A2 & A3) (B1 & B2 & B3) H. unfold fclosest_on_segm.
  destruct (fdiff fl FL _ _ A1 B1) as (x & X & X1 & _). destruct (fdiff fl FL _ _ A2 B2) as (y & Y & Y1 & _). destruct (fdiff fl FL _ _ A3 B3) as (z & Z & Z1 & _). rewrite X, Y, Z.
  assert (p2 500 <= p2 501) as P by (apply p2_mono; lia).
  assert (coords_within (p2 501) a) as CA by (repeat split; qc_lra). assert (coords_within (p2 501) (V3 x y z)) as CD by (repeat split; assumption).
  destruct (fdot_finite fl FL 21 _ _ CA CD) as (n & -> & _). destruct (fdot_finite fl FL 24 _ _ CD CD) as (s & S & _). rewrite S.
  assert (0 < s) as SP.
  { apply (fsq_large fl FL 24 (V3 x y z) s); [|exact S]. cbn. destruct H as [H|[H|H]]; [left|right; left|right; right]; eapply diff_large; eassumption. }
  destruct (fratio_some fl (- n) s SP) as (t & -> & T0 & T1).
  destruct (fstep_near fl FL 27 _ _ _ _ A1 B1 X T0 T1) as (p & -> & Pn). destruct (fstep_near fl FL 28 _ _ _ _ A2 B2 Y T0 T1) as (q & -> & Qn). destruct (fstep_near fl FL 29 _ _ _ _ A3 B3 Z T0 T1) as (r & -> & Rn).
  eexists. split; [reflexivity|]. exists t. auto.
Qed.

(** ** on a grid *)
Lemma grid_dot fl kk e i j k i' j' k' : in_all_doubles fl -> (-500 <= e <= 450)%Z ->
  (Z.abs i <= 2 ^ 25)%Z -> (Z.abs j <= 2 ^ 25)%Z -> (Z.abs k <= 2 ^ 25)%Z -> (Z.abs i' <= 2 ^ 25)%Z -> (Z.abs j' <= 2 ^ 25)%Z -> (Z.abs k' <= 2 ^ 25)%Z ->
  let p := V3 (ofZ i * p2 e) (ofZ j * p2 e) (ofZ k * p2 e) in let q := V3 (ofZ i' * p2 e) (ofZ j' * p2 e) (ofZ k' * p2 e) in
  fdot3 fl kk p q = Some (v3dot p q).
Proof.
  intros FL E Bi Bj Bk Bi' Bj' Bk' p q. unfold fdot3, v3dot, p, q. cbn [vx vy vz].
  assert (forall u v, ofZ u * p2 e * (ofZ v * p2 e) = ofZ (u * v) * p2 (e + e)) as SQ by (intros; rewrite ofZ_mul, p2_add; ring).
  assert (forall u v, ofZ u * p2 (e + e) + ofZ v * p2 (e + e) = ofZ (u + v) * p2 (e + e)) as ADD by (intros; rewrite ofZ_add; ring).
  assert (forall u v, (Z.abs u <= 2 ^ 25)%Z -> (Z.abs v <= 2 ^ 25)%Z -> (Z.abs (u * v) <= 2 ^ 50)%Z) as QB.
  { intros u v U V. rewrite Z.abs_mul. change (2 ^ 50)%Z with (2 ^ 25 * 2 ^ 25)%Z. apply Z.mul_le_mono_nonneg; try assumption; apply Z.abs_nonneg. }
  pose proof (QB _ _ Bi Bi') as Q1. pose proof (QB _ _ Bj Bj') as Q2. pose proof (QB _ _ Bk Bk') as Q3. rewrite !SQ. revert Q1 Q2 Q3. generalize (i * i')%Z (j * j')%Z (k * k')%Z. intros u v w Q1 Q2 Q3.
  assert (4 * 2 ^ 50 <= 2 ^ 53)%Z as W2 by (cbn; lia).
  rewrite !(fl_exact fl _ _ (e + e) FL) by lia. cbn [fplus]. rewrite ADD. rewrite (fl_exact fl 0 _ (e + e) FL) by lia. cbn [fplus]. rewrite ADD. rewrite (fl_exact fl 0 _ (e + e) FL) by lia. reflexivity.
Qed.
(** the parameter is right up to one rounding *)
Lemma fratio_near fl n d t : in_all_doubles fl -> d <> 0 -> fratio01 fl n d = Some t -> Qcabs (n / d) <= p2 1023 -> Qcabs (t - qclamp (n / d) 0 1) <= u53 + u53.
Proof.
  intros FL D. unfold fratio01. destruct (Qceqb_spec d 0) as [->|_]; [contradiction|]. rewrite (proj1 FL). intros H B. rewrite (full_within _ 1023 ltac:(lia) B) in H. apply (f_equal (fun o => match o with Some v => v | None => 0 end)) in H. cbv beta iota in H. subst t.
  pose proof (unbounded_error _ B) as E. revert B E. generalize (n / d). intros x B E. pose proof u53_pos as U. assert (p2 (-1075) <= u53) as UH by (apply p2_mono; lia).
  assert (unbounded 1 = 1) as U1 by (apply unbounded_id; rewrite <- p2_0; apply p2_dbl; lia). unfold qclamp.
  assert (Qcabs (0 - 0) <= u53 + u53) as Z by (replace (0 - 0) with 0 by ring; rewrite Qcabs_0; qc_lra).
  assert (Qcabs (1 - 1) <= u53 + u53) as O by (replace (1 - 1) with 0 by ring; rewrite Qcabs_0; qc_lra).
  destruct (x <? 0) eqn:X0.
  - qcb. assert (unbounded x <= 0) as L by (apply unbounded_nonpos; qc_lra). destruct (unbounded x <? 0) eqn:Y0; [exact Z|]. qcb. destruct (1 <? unbounded x) eqn:Y1; [qcb; exfalso; assert (0 < 1) by reflexivity; qc_lra|].
    assert (unbounded x = 0) as -> by qc_lra. exact Z.
  - qcb. assert (0 <= unbounded x) as L by (apply unbounded_nonneg; exact X0). destruct (unbounded x <? 0) eqn:Y0; [qcb; exfalso; qc_lra|]. destruct (1 <? x) eqn:X1.
    + qcb. assert (1 <= unbounded x) as L1 by (rewrite <- U1; apply unbounded_mono; qc_lra). destruct (1 <? unbounded x) eqn:Y1; [exact O|]. qcb. assert (unbounded x = 1) as -> by qc_lra. exact O.
    + qcb. assert (unbounded x <= 1) as L1 by (rewrite <- U1; apply unbounded_mono; exact X1). destruct (1 <? unbounded x) eqn:Y1; [qcb; exfalso; qc_lra|].
      assert (Qcabs x <= 1) as XA by (apply abs_le; qc_lra). assert (0 <= u53 * (1 - Qcabs x)) by (apply mul_nonneg; qc_lra). qc_lra.
Qed.
Lemma near_other t t' a b p : Qcabs (t - t') <= u53 + u53 -> near_at t a b p -> near_coord a b (a + t' * (b - a)) p.
Proof.
  intros T N M HA HB. specialize (N M HA HB). assert (p2 (-49) = qc 8 1 * u53 + qc 8 1 * u53) as -> by (apply Qc_is_canon; vm_compute; reflexivity). rewrite (proj1 small_terms) in N.
  replace (p - (a + t' * (b - a))) with ((p - (a + t * (b - a))) + (b - a) * (t - t')) by ring.
  pose proof (abs_add (p - (a + t * (b - a))) ((b - a) * (t - t'))) as S. pose proof u53_pos as U. pose proof (Qcabs_nonneg a) as A0.
  assert (Qcabs ((b - a) * (t - t')) <= (M + M) * (u53 + u53)) as L.
  { pose proof (Qcle_Qcabs a). pose proof (Qcopp_Qcabs a). pose proof (Qcle_Qcabs b). pose proof (Qcopp_Qcabs b). pose proof (Qcle_Qcabs (t - t')). pose proof (Qcopp_Qcabs (t - t')).
    assert (- (M + M) <= b - a) by qc_lra. assert (b - a <= M + M) by qc_lra. revert H3 H4 H5 H6 T U. generalize (b - a) (M + M) (t - t') (u53 + u53). intros x y z w I1 I2 I3 I4 T U.
    apply abs_le.
    - assert (0 <= (y - x) * (w + z)) by (apply mul_nonneg; qc_lra). assert (0 <= (y + x) * (w - z)) by (apply mul_nonneg; qc_lra). qc_nra.
    - assert (0 <= (y - x) * (w - z)) by (apply mul_nonneg; qc_lra). assert (0 <= (y + x) * (w + z)) by (apply mul_nonneg; qc_lra). qc_nra. }
  assert (0 <= u53 * M) by (apply mul_nonneg; qc_lra).
  replace ((M + M) * (u53 + u53)) with (qc 4 1 * (u53 * M)) in L by (assert (qc 4 1 = 1 + 1 + 1 + 1) as -> by (apply Qc_is_canon; reflexivity); ring).
  replace (qc 8 1 * u53 * M) with (qc 8 1 * (u53 * M)) in N by ring. replace ((qc 8 1 * u53 + qc 8 1 * u53) * M) with (qc 8 1 * (u53 * M) + qc 8 1 * (u53 * M)) by ring. qc_lra.
Qed.
Lemma grid_within e i : (-500 <= e <= 450)%Z -> (Z.abs i < 2 ^ 24)%Z -> Qcabs (ofZ i * p2 e) <= p2 500.
Proof.
  intros E I. rewrite Qcabs_mul, ofZ_abs by apply lt_le, p2_pos. apply Qcle_trans with (p2 24 * p2 e).
  - rewrite <- (ofZ_p2 24) by lia. rewrite !(Qcmult_comm _ (p2 e)). apply mul_le_l; [apply lt_le, p2_pos|]. apply ofZ_le. lia.
  - rewrite <- p2_add. apply p2_mono. lia.
Qed.
Lemma grid_apart e i i' : (-500 <= e)%Z -> i <> i' -> p2 (-500) <= Qcabs (ofZ i' * p2 e - ofZ i * p2 e).
Proof.
  intros E D. replace (ofZ i' * p2 e - ofZ i * p2 e) with (ofZ (i' - i) * p2 e) by (rewrite ofZ_sub; ring). rewrite Qcabs_mul, ofZ_abs by apply lt_le, p2_pos.
  apply Qcle_trans with (1 * p2 e); [rewrite Qcmult_1_l; apply p2_mono; lia|]. rewrite !(Qcmult_comm _ (p2 e)). apply mul_le_l; [apply lt_le, p2_pos|]. change 1 with (ofZ 1). apply ofZ_le. lia.
Qed.
Lemma ratio_bounded n s q K : 0 < q -> q <= s -> Qcabs n <= K * q -> Qcabs (n / s) <= K.
Proof.
  intros Q S N. assert (s <> 0) as S0 by (intros ->; qc_lra). assert (n / s * s = n) as E by (field; exact S0). pose proof (Qcabs_mul (n / s) s ltac:(qc_lra)) as H. rewrite E in H.
  pose proof (Qcabs_nonneg (n / s)) as X. set (x := Qcabs (n / s)) in *. apply Qcnot_lt_le. intros L.
  assert (0 <= x * (s - q)) by (apply mul_nonneg; qc_lra). assert (0 < (x - K) * q) by (apply mul_pos; qc_lra). qc_lra.
Qed.
Lemma grid_ratio e i j k x y z : (-500 <= e <= 450)%Z -> (Z.abs i <= 2 ^ 25)%Z -> (Z.abs j <= 2 ^ 25)%Z -> (Z.abs k <= 2 ^ 25)%Z -> (Z.abs x <= 2 ^ 25)%Z -> (Z.abs y <= 2 ^ 25)%Z -> (Z.abs z <= 2 ^ 25)%Z ->
  let p := V3 (ofZ i * p2 e) (ofZ j * p2 e) (ofZ k * p2 e) in let d := V3 (ofZ x * p2 e) (ofZ y * p2 e) (ofZ z * p2 e) in
  0 < v3sq d -> Qcabs (- v3dot p d / v3sq d) <= p2 1023.
Proof.
  intros E I J K X Y Z p d S.
  assert (v3sq d = ofZ (x * x + y * y + z * z) * p2 (e + e)) as ES by (unfold v3sq, d; cbn [vx vy vz]; rewrite !ofZ_add, !ofZ_mul, p2_add; ring).
  assert (- v3dot p d = ofZ (- (i * x + j * y + k * z)) * p2 (e + e)) as EN by (unfold v3dot, p, d; cbn [vx vy vz]; replace (- (i * x + j * y + k * z))%Z with (0 - (i * x + j * y + k * z))%Z by lia; rewrite ofZ_sub, !ofZ_add, !ofZ_mul, p2_add; change (ofZ 0) with 0; ring).
  pose proof (p2_pos (e + e)) as Q. apply Qcle_trans with (p2 53); [|apply p2_mono; lia]. apply (ratio_bounded _ _ (p2 (e + e))); [exact Q| |].
  - rewrite ES in *. assert (0 < x * x + y * y + z * z)%Z as P.
    { apply ofZ_lt_inv. change (ofZ 0) with 0. apply Qcnot_le_lt. intros L. assert (0 <= - ofZ (x * x + y * y + z * z) * p2 (e + e)) by (apply mul_nonneg; qc_lra). qc_lra. }
    apply Qcle_trans with (1 * p2 (e + e)); [rewrite Qcmult_1_l; apply Qcle_refl|]. rewrite !(Qcmult_comm _ (p2 (e + e))). apply mul_le_l; [apply lt_le, Q|]. change 1 with (ofZ 1). apply ofZ_le. lia.
  - rewrite EN. rewrite Qcabs_mul, ofZ_abs by apply lt_le, Q. rewrite <- (ofZ_p2 53) by lia. rewrite !(Qcmult_comm _ (p2 (e + e))). apply mul_le_l; [apply lt_le, Q|]. apply ofZ_le.
    assert (forall u v, (Z.abs u <= 2 ^ 25)%Z -> (Z.abs v <= 2 ^ 25)%Z -> (Z.abs (u * v) <= 2 ^ 50)%Z) as QB.
    { intros u v U V. rewrite Z.abs_mul. change (2 ^ 50)%Z with (2 ^ 25 * 2 ^ 25)%Z. apply Z.mul_le_mono_nonneg; try assumption; apply Z.abs_nonneg. }
    pose proof (QB _ _ I X). pose proof (QB _ _ J Y). pose proof (QB _ _ K Z). assert (4 * 2 ^ 50 <= 2 ^ 53)%Z as W2 by (cbn; lia). lia.
Qed.
Lemma fclosest_grid : forall fl, in_all_doubles fl -> forall e a b, (-500 <= e <= 450)%Z -> on_grid3 e 24 a -> on_grid3 e 24 b -> a <> b ->
  exists p c, fclosest_on_segm fl a b = Point p /\ SpecGjk.nearest (on_segment a b) origin c /\ near_point a b c p.
Proof.
  intros fl FL e a b E (i & j & k & Bi & Bj & Bk & Ex & Ey & Ez) (i' & j' & k' & Bi' & Bj' & Bk' & Ex' & Ey' & Ez') NE. change Qc_of_Z with ofZ in *.
  destruct (segm_nearest a b NE) as (c & Ec & Hc).
  assert (a = V3 (ofZ i * p2 e) (ofZ j * p2 e) (ofZ k * p2 e)) as Ea by (destruct a; cbn in *; congruence).
  assert (b = V3 (ofZ i' * p2 e) (ofZ j' * p2 e) (ofZ k' * p2 e)) as Eb by (destruct b; cbn in *; congruence).
  assert (forall u v, ofZ u * p2 e - ofZ v * p2 e = ofZ (u - v) * p2 e) as SUB by (intros; rewrite ofZ_sub; ring).
  assert (forall u v, (Z.abs u < 2 ^ 24)%Z -> (Z.abs v < 2 ^ 24)%Z -> (Z.abs (v - u) <= 2 ^ 25)%Z) as D by (intros; change (2 ^ 25)%Z with (2 * 2 ^ 24)%Z; lia).
  pose proof (D i i' Bi Bi') as D1. pose proof (D j j' Bj Bj') as D2. pose proof (D k k' Bk Bk') as D3.
  assert (2 ^ 25 = 2 * 2 ^ 24)%Z as W25 by reflexivity. assert (2 ^ 25 <= 2 ^ 53)%Z as W by (cbn; lia).
  assert (distinct_enough a b) as DE.
  { unfold distinct_enough. rewrite Ex, Ey, Ez, Ex', Ey', Ez'. destruct (Z.eq_dec i i') as [<-|X]; [|left; apply grid_apart; [lia|exact X]].
    destruct (Z.eq_dec j j') as [<-|Y]; [|right; left; apply grid_apart; [lia|exact Y]]. destruct (Z.eq_dec k k') as [<-|Z]; [|right; right; apply grid_apart; [lia|exact Z]].
    exfalso. apply NE. rewrite Ea, Eb. reflexivity. }
  set (d := V3 (ofZ (i' - i) * p2 e) (ofZ (j' - j) * p2 e) (ofZ (k' - k) * p2 e)).
  assert (v3sub b a = d) as Ed by (rewrite Ea, Eb; unfold v3sub, d; cbn [vx vy vz]; rewrite !SUB; reflexivity).
  assert (fl 0%nat (vx b - vx a) = Some (vx d)) as X by (rewrite Ex, Ex', SUB; apply fl_exact; [exact FL|lia|lia]).
  assert (fl 0%nat (vy b - vy a) = Some (vy d)) as Y by (rewrite Ey, Ey', SUB; apply fl_exact; [exact FL|lia|lia]).
  assert (fl 0%nat (vz b - vz a) = Some (vz d)) as Z by (rewrite Ez, Ez', SUB; apply fl_exact; [exact FL|lia|lia]).
  assert (fdot3 fl 21 a d = Some (v3dot a d)) as N by (rewrite Ea; apply grid_dot; assumption || lia).
  assert (fdot3 fl 24 d d = Some (v3sq d)) as S by (apply (grid_dot fl 24 e (i' - i) (j' - j) (k' - k) (i' - i) (j' - j) (k' - k)); assumption || lia).
  assert (0 < v3sq d) as SP.
  { apply (fsq_large fl FL 24 d); [|exact S]. destruct DE as [H|[H|H]]; [left|right; left|right; right]; eapply diff_large; eassumption. }
  assert (v3sq d <> 0) as S0 by (intros H0; rewrite H0 in SP; qc_lra).
  assert (Qcabs (- v3dot a d / v3sq d) <= p2 1023) as RB by (rewrite Ea; apply grid_ratio; assumption || lia).
  unfold closest_on_segm, qdiv in Ec. rewrite Ed in Ec. destruct (Qceqb_spec (v3sq d) 0) as [S1|_]; [contradiction|]. cbn [bind] in Ec.
  assert (c = v3add a (v3scale d (qclamp (- v3dot a d / v3sq d) 0 1))) as -> by congruence. clear Ec.
  destruct (fratio_some fl (- v3dot a d) _ SP) as (t & T & T0 & T1). pose proof (fratio_near fl _ _ t FL S0 T RB) as TN.
  assert (Qcabs (vx a) <= p2 500 /\ Qcabs (vy a) <= p2 500 /\ Qcabs (vz a) <= p2 500) as (A1 & A2 & A3) by (rewrite Ex, Ey, Ez; repeat split; apply grid_within; assumption).
  assert (Qcabs (vx b) <= p2 500 /\ Qcabs (vy b) <= p2 500 /\ Qcabs (vz b) <= p2 500) as (B1 & B2 & B3) by (rewrite Ex', Ey', Ez'; repeat split; apply grid_within; assumption).
  destruct (fstep_near fl FL 27 _ _ _ _ A1 B1 X T0 T1) as (p & P & Pn). destruct (fstep_near fl FL 28 _ _ _ _ A2 B2 Y T0 T1) as (q & Q & Qn). destruct (fstep_near fl FL 29 _ _ _ _ A3 B3 Z T0 T1) as (r & R & Rn).
  eexists (V3 p q r), _. split; [|split; [exact Hc|]].
  - unfold fclosest_on_segm. rewrite X, Y, Z. change (V3 (vx d) (vy d) (vz d)) with d. rewrite N, S, T, P, Q, R. reflexivity.
  - set (t' := qclamp _ 0 1) in *. pose proof (near_other _ _ _ _ _ TN Pn) as P'. pose proof (near_other _ _ _ _ _ TN Qn) as Q'. pose proof (near_other _ _ _ _ _ TN Rn) as R'.
    assert (vx d = vx b - vx a /\ vy d = vy b - vy a /\ vz d = vz b - vz a) as (G1 & G2 & G3) by (rewrite <- Ed; auto).
    unfold near_point. cbn [v3add v3scale vx vy vz]. change (vx (v3scale d t')) with (vx d * t'). change (vy (v3scale d t')) with (vy d * t'). change (vz (v3scale d t')) with (vz d * t').
    rewrite G1, G2, G3. rewrite !(Qcmult_comm _ t'). auto.
Qed.

(** ** the origin lies behind the start *)
Lemma fl_sign fl k x y : in_all_doubles fl -> 0 <= x -> fl k x = Some y -> 0 <= y.
Proof. intros FL. exact (fl_nonneg fl FL k x y). Qed.
Lemma diff_sign fl a b d : in_all_doubles fl -> 0 <= a * (b - a) -> fl 0%nat (b - a) = Some d -> 0 <= a * d.
Proof.
  intros FL H E. rewrite (proj1 FL) in E. destruct (full_some _ _ E) as (-> & _).
  destruct (Qclt_le_dec 0 a) as [A|A].
  - assert (0 <= b - a) as B by (apply Qcnot_lt_le; intros L; assert (0 < a * - (b - a)) by (apply mul_pos; qc_lra); qc_lra). apply mul_nonneg; [qc_lra|apply unbounded_nonneg, B].
  - destruct (Qceqb_spec a 0) as [->|A0]; [rewrite Qcmult_0_l; apply Qcle_refl|].
    assert (a < 0) as A' by (apply Qcnot_le_lt; intros L; apply A0, Qcle_antisym; assumption).
    assert (b - a <= 0) as B by (apply Qcnot_lt_le; intros L; assert (0 < - a * (b - a)) by (apply mul_pos; qc_lra); qc_lra).
    pose proof (unbounded_nonpos _ B) as U. assert (0 <= - a * - unbounded (b - a)) by (apply mul_nonneg; qc_lra). replace (- a * - unbounded (b - a)) with (a * unbounded (b - a)) in H0 by ring. exact H0.
Qed.
Lemma fdot_sign fl k a b s : in_all_doubles fl -> 0 <= vx a * vx b -> 0 <= vy a * vy b -> 0 <= vz a * vz b -> fdot3 fl k a b = Some s -> 0 <= s.
Proof.
  intros FL X Y Z. unfold fdot3, fplus. destruct (fl k (vx a * vx b)) as [x|] eqn:EX; [|discriminate]. destruct (fl (k + 1)%nat (vy a * vy b)) as [y|] eqn:EY; [|discriminate].
  destruct (fl 0%nat (x + y)) as [t|] eqn:T; [|discriminate]. destruct (fl (k + 2)%nat (vz a * vz b)) as [z|] eqn:EZ; [|discriminate]. intros E.
  pose proof (fl_sign _ _ _ _ FL X EX). pose proof (fl_sign _ _ _ _ FL Y EY). pose proof (fl_sign _ _ _ _ FL Z EZ).
  assert (0 <= t) by (apply (fl_sign fl 0 (x + y) t FL); [qc_lra|exact T]). apply (fl_sign fl 0 (t + z) s FL); [qc_lra|exact E].
Qed.
Lemma fratio_neg fl n d t : in_all_doubles fl -> n <= 0 -> 0 <= d -> fratio01 fl n d = Some t -> t = 0.
Proof.
  intros FL N D. unfold fratio01. assert ((0 <? n) = false) as P by (destruct (0 <? n) eqn:E; [qcb; exfalso; qc_lra|reflexivity]). rewrite P.
  destruct (Qceqb_spec d 0) as [->|D0]; [destruct (Qceqb n 0); [discriminate|]; intros H; congruence|].
  assert (0 < d) as DP by (apply Qcnot_le_lt; intros L; apply D0, Qcle_antisym; assumption).
  assert (n / d <= 0) as Q by (apply Qcnot_lt_le; intros L; pose proof (mul_pos _ _ L DP) as M; replace (n / d * d) with n in M by (field; exact D0); qc_lra).
  rewrite (proj1 FL). destruct (round_full (n / d)) as [q|] eqn:R; [|intros H; congruence]. destruct (full_some _ _ R) as (-> & _). apply unbounded_nonpos in Q. revert Q. generalize (unbounded (n / d)). intros u Q H.
  assert (0 < 1) as O by reflexivity. destruct (u <? 0) eqn:U; [congruence|]. qcb. destruct (1 <? u) eqn:V; [qcb; exfalso; qc_lra|]. assert (u = t) as <- by congruence. apply Qcle_antisym; assumption.
Qed.
Lemma fstep_0 fl k a d : in_all_doubles fl -> a_double a -> fstep fl k a d 0 = Some a.
Proof.
  intros FL A. unfold fstep. rewrite Qcmult_0_r. pose proof (fl_exact fl k 0 0 FL ltac:(cbn; lia) ltac:(lia)) as H. change (ofZ 0) with 0 in H. rewrite Qcmult_0_l in H. rewrite H.
  rewrite Qcplus_0_r, (proj1 FL). exact A.
Qed.
Lemma fclosest_start : forall fl, in_all_doubles fl -> forall a b, double_point a -> coords_within (p2 500) a -> coords_within (p2 500) b -> behind_start a b ->
  fclosest_on_segm fl a b = NotANumber \/ fclosest_on_segm fl a b = Point a.
Proof.
  intros fl FL a b (DA1 & DA2 & DA3) (A1 & A2 & A3) (B1 & B2 & B3) (S1 & S2 & S3). unfold fclosest_on_segm.
  destruct (fdiff fl FL _ _ A1 B1) as (x & X & X1 & _). destruct (fdiff fl FL _ _ A2 B2) as (y & Y & Y1 & _). destruct (fdiff fl FL _ _ A3 B3) as (z & Z & Z1 & _). rewrite X, Y, Z.
  assert (p2 500 <= p2 501) as P by (apply p2_mono; lia).
  assert (coords_within (p2 501) a) as CA by (repeat split; qc_lra). assert (coords_within (p2 501) (V3 x y z)) as CD by (repeat split; assumption).
  destruct (fdot_finite fl FL 21 _ _ CA CD) as (n & N & _). destruct (fdot_finite fl FL 24 _ _ CD CD) as (s & S & _). rewrite N, S.
  apply (fdot_sign fl 21 a (V3 x y z) n FL) in N; cbn [vx vy vz]; try (eapply diff_sign; eassumption).
  apply (fdot_sign fl 24 (V3 x y z) (V3 x y z) s FL) in S; cbn [vx vy vz]; try apply Qc_sq_nonneg.
  destruct (fratio01 fl (- n) s) as [t|] eqn:T; [|left; reflexivity]. right. assert (- n <= 0) as N' by qc_lra. rewrite (fratio_neg fl _ _ _ FL N' S T).
  rewrite !fstep_0 by assumption. destruct a; reflexivity.
Qed.
