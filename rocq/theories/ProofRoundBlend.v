(** One blend alpha x1 + (1 - alpha) x0 with roundings. *)
From Coq Require Import List ZArith QArith Qcanon Bool Lia Lqa.
From Verif Require Import Base BaseFacts LoopFacts ModelVec ModelNurbs ModelRound SpecRound ProofRound.
Open Scope Qc_scope.

(** bounded on both sides *)
Definition bd (x X : Qc) : Prop := x <= X /\ - x <= X.
Lemma bd_nonneg x X : bd x X -> 0 <= X.
Proof. intros (A & B). qc_lra. Qed.
Lemma bd_mono x X Y : bd x X -> X <= Y -> bd x Y.
Proof. intros (A & B) C. split; qc_lra. Qed.
Lemma bd_add x X y Y : bd x X -> bd y Y -> bd (x + y) (X + Y).
Proof. intros (A & B) (C & D). split; qc_lra. Qed.
Lemma bd_mul x X y Y : bd x X -> bd y Y -> bd (x * y) (X * Y).
Proof.
  intros (A & B) (C & D).
  assert (0 <= (X - x) * (Y + y)) by (apply mul_nonneg; qc_lra). assert (0 <= (X + x) * (Y - y)) by (apply mul_nonneg; qc_lra).
  assert (0 <= (X - x) * (Y - y)) by (apply mul_nonneg; qc_lra). assert (0 <= (X + x) * (Y + y)) by (apply mul_nonneg; qc_lra).
  split; qc_lra.
Qed.
Lemma bd_abs x X : bd x X <-> Qcabs x <= X.
Proof.
  split.
  - intros (A & B). apply (Qcabs_case x (fun y => y <= X)); intros; assumption.
  - intros H. split; eapply Qcle_trans; try exact H; [apply Qcle_Qcabs|apply Qcopp_Qcabs].
Qed.

Section Blend.
Variable t : Qc.
Hypothesis T0 : 0 < t.
Hypothesis T1 : t <= 1.
Notation T := (/ t).
Lemma tT : t * T = 1.
Proof. apply Qcmult_inv_r. intros E. rewrite E in T0. discriminate T0. Qed.
Lemma T_ge1 : 1 <= T.
Proof. pose proof tT. pose proof (Qcinv_pos _ T0). assert (0 <= (1 - t) * T) by (apply mul_nonneg; qc_lra). qc_lra. Qed.
Lemma T_pow k : t ^ k * T ^ k = 1.
Proof. induction k; [reflexivity|]. cbn [Qcpower]. replace (t * t ^ k * (T * T ^ k)) with ((t * T) * (t ^ k * T ^ k)) by ring. rewrite IHk, tT. ring. Qed.
Lemma T_pow_ge1 k : 1 <= T ^ k.
Proof.
  induction k; [apply Qcle_refl|]. cbn [Qcpower]. pose proof T_ge1.
  assert (0 <= (T - 1) * T ^ k) by (apply mul_nonneg; qc_lra). qc_lra.
Qed.
Lemma T_add a b : T ^ (a + b) = T ^ a * T ^ b.
Proof. induction a; cbn [Nat.add Qcpower]; [ring|]. rewrite IHa. ring. Qed.

(** [near] with the factor on the other side *)
Lemma near_bd k x M y : near t k x M y <-> bd x M /\ bd (y - x) ((T ^ k - 1) * M).
Proof.
  pose proof (T_pow k) as E. pose proof (T_pow_ge1 k) as G. pose proof (pw_pos t T0 k) as P.
  unfold near, bd. set (s := t ^ k) in *. set (S := T ^ k) in *. split.
  - intros (A & B & C & D). split; [split; assumption|]. split.
    + replace (y - x) with (S * (s * (y - x))) by (replace (S * (s * (y - x))) with ((s * S) * (y - x)) by ring; rewrite E; ring).
      replace ((S - 1) * M) with (S * ((1 - s) * M)) by (replace (S * ((1 - s) * M)) with (S * M - (s * S) * M) by ring; rewrite E; ring).
      apply mul_le_l; [qc_lra|exact C].
    + replace (- (y - x)) with (S * (s * (x - y))) by (replace (S * (s * (x - y))) with ((s * S) * (x - y)) by ring; rewrite E; ring).
      replace ((S - 1) * M) with (S * ((1 - s) * M)) by (replace (S * ((1 - s) * M)) with (S * M - (s * S) * M) by ring; rewrite E; ring).
      apply mul_le_l; [qc_lra|exact D].
  - intros ((A & B) & C & D). split; [exact A|]. split; [exact B|].
    replace ((1 - s) * M) with (s * ((S - 1) * M)) by (replace (s * ((S - 1) * M)) with ((s * S) * M - s * M) by ring; rewrite E; ring).
    split; (apply mul_le_l; [apply lt_le; exact P|qc_lra]).
Qed.
Lemma rounded_bd y z Y : rounded t y z -> bd y Y -> bd (z - y) ((T - 1) * Y).
Proof.
  intros R H. destruct (rounded_lr t y z R) as (a & A0 & AE & A1 & A2 & R1 & R2). pose proof T_ge1 as G. pose proof tT as E.
  assert (a <= Y) by (destruct H; destruct AE as [-> | ->]; assumption).
  assert ((1 - t) * a <= (1 - t) * Y) by (apply mul_le_l; [qc_lra|assumption]).
  assert (0 <= (1 - t) * (T - 1) * Y) by (apply mul_nonneg; [apply mul_nonneg|]; qc_lra).
  assert ((1 - t) * Y <= (T - 1) * Y). { replace ((T - 1) * Y) with ((1 - t) * Y + (1 - t) * (T - 1) * Y + ((t * T) - 1) * Y) by ring. rewrite E. qc_lra. }
  split; qc_lra.
Qed.
Lemma rounded_size y z Y : rounded t y z -> bd y Y -> bd z (T * Y).
Proof. intros R H. pose proof (rounded_bd y z Y R H) as K. replace z with ((z - y) + y) by ring. replace (T * Y) with ((T - 1) * Y + Y) by ring. apply bd_add; assumption. Qed.

(** the two weights, computed *)
Lemma blend_weights a a' b' : 0 <= a -> a <= 1 -> close t 3 a a' -> rounded t (1 - a') b' ->
  exists WA WB EA EB, bd a' WA /\ bd b' WB /\ WA + WB <= T ^ 6 /\ bd (a' - a) EA /\ bd (b' - (1 - a)) EB /\ EA + EB <= T ^ 6 - 1.
Proof.
  intros A0 A1 C R. pose proof (close_nonneg t T0 3 a a' C) as A'. destruct C as (_ & C1 & C2).
  pose proof (T_pow 3) as E3. pose proof (T_pow_ge1 3) as G3. pose proof T_ge1 as G1.
  assert (T <= T ^ 3) as GT. { replace (T ^ 3) with (T * (T * T)) by (cbn [Qcpower]; ring). assert (0 <= (T - 1) * (T + 1)) by (apply mul_nonneg; qc_lra). assert (0 <= T * ((T - 1) * (T + 1))) by (apply mul_nonneg; qc_lra). qc_lra. }
  replace (T ^ 6) with (T ^ 3 * T ^ 3) by (cbn [Qcpower]; ring).
  set (A := T ^ 3) in *. set (s := t ^ 3) in *. clearbody A s.
  assert (0 < s) as S0. { destruct (Qclt_le_dec 0 s) as [L|L]; [exact L|]. exfalso. assert (0 <= (- s) * A) by (apply mul_nonneg; qc_lra). qc_lra. }
  assert (a' <= A * a) as U1. { assert (A * (s * a') <= A * a) by (apply mul_le_l; qc_lra). replace (A * (s * a')) with ((s * A) * a') in H by ring. rewrite E3 in H. qc_lra. }
  assert (a <= A * a') as U2. { assert (A * (s * a) <= A * a') by (apply mul_le_l; qc_lra). replace (A * (s * a)) with ((s * A) * a) in H by ring. rewrite E3 in H. qc_lra. }
  assert (bd (a' - a) ((A - 1) * a)) as BA.
  { split; [qc_lra|]. destruct (Qclt_le_dec a a') as [L|L]; [assert (0 <= (A - 1) * a) by (apply mul_nonneg; qc_lra); qc_lra|].
    assert ((A - 1) * a' <= (A - 1) * a) by (apply mul_le_l; qc_lra). qc_lra. }
  set (D := (1 - a) + (A - 1) * a) in *.
  assert (bd (1 - a') D) as BD. { unfold D. destruct BA. split; qc_lra. }
  pose proof (bd_nonneg _ _ BD) as D0.
  exists (A * a), (T * D), ((A - 1) * a), ((T - 1) * D + (A - 1) * a). repeat match goal with |- _ /\ _ => split end.
  - assert (0 <= A * a) by (apply mul_nonneg; qc_lra). split; qc_lra.
  - apply rounded_size with (y := 1 - a'); assumption.
  - assert (T * D <= A * D) by (rewrite !(Qcmult_comm _ D); apply mul_le_l; assumption). unfold D in *.
    assert (0 <= A * (A - 1) * (1 - a)) by (apply mul_nonneg; [apply mul_nonneg|]; qc_lra). qc_lra.
  - exact BA.
  - replace (b' - (1 - a)) with ((b' - (1 - a')) + (a - a')) by ring. apply bd_add; [apply rounded_bd; assumption|]. destruct BA. split; qc_lra.
  - assert ((T - 1) * D <= (A - 1) * D) by (rewrite !(Qcmult_comm _ D); apply mul_le_l; qc_lra). unfold D in *.
    assert (0 <= (A - 1) * A * (1 - a)) by (apply mul_nonneg; [apply mul_nonneg|]; qc_lra). qc_lra.
Qed.

Lemma blend_near k a a' b' x1 y1 x0 y0 z1 z0 M : 0 <= a -> a <= 1 -> close t 3 a a' -> rounded t (1 - a') b' ->
  near t k x1 M y1 -> near t k x0 M y0 -> rounded t (y1 * a') z1 -> rounded t (y0 * b') z0 ->
  near t (7 + k) (x1 * a + x0 * (1 - a)) M (z1 + z0).
Proof.
  intros A0 A1 C R N1 N0 R1 R0. apply near_bd in N1, N0. destruct N1 as (X1 & Y1), N0 as (X0 & Y0). apply near_bd.
  destruct (blend_weights a a' b' A0 A1 C R) as (WA & WB & EA & EB & HA & HB & HW & FA & FB & HE).
  pose proof (bd_nonneg _ _ X1) as M0. pose proof (T_pow_ge1 k) as GS. pose proof T_ge1 as G1. pose proof (T_pow_ge1 6) as G6.
  replace (T ^ (7 + k)) with (T * T ^ 6 * T ^ k) by (rewrite T_add; cbn [Qcpower]; ring).
  set (S := T ^ k) in *. set (G := T ^ 6) in *. clearbody S G. split.
  - apply bd_mono with (M * a + M * (1 - a)); [|replace (M * a + M * (1 - a)) with M by ring; apply Qcle_refl].
    apply bd_add; (apply bd_mul; [assumption|]); split; qc_lra.
  - assert (bd y1 (S * M)) as Z1. { replace y1 with ((y1 - x1) + x1) by ring. replace (S * M) with ((S - 1) * M + M) by ring. apply bd_add; assumption. }
    assert (bd y0 (S * M)) as Z0. { replace y0 with ((y0 - x0) + x0) by ring. replace (S * M) with ((S - 1) * M + M) by ring. apply bd_add; assumption. }
    pose proof (rounded_bd _ _ _ R1 (bd_mul _ _ _ _ Z1 HA)) as Q1. pose proof (rounded_bd _ _ _ R0 (bd_mul _ _ _ _ Z0 HB)) as Q0.
    pose proof (bd_mul _ _ _ _ HA Y1) as P1. pose proof (bd_mul _ _ _ _ HB Y0) as P0.
    pose proof (bd_mul _ _ _ _ X1 FA) as V1. pose proof (bd_mul _ _ _ _ X0 FB) as V0.
    replace (z1 + z0 - (x1 * a + x0 * (1 - a))) with
      ((z1 - y1 * a') + (z0 - y0 * b') + (a' * (y1 - x1) + b' * (y0 - x0)) + (x1 * (a' - a) + x0 * (b' - (1 - a)))) by ring.
    pose proof (bd_add _ _ _ _ (bd_add _ _ _ _ (bd_add _ _ _ _ Q1 Q0) (bd_add _ _ _ _ P1 P0)) (bd_add _ _ _ _ V1 V0)) as F.
    apply (bd_mono _ _ _ F). clear - HW HE M0 GS G1 G6.
    assert (0 <= (T - 1) * (S * M) * (G - (WA + WB))) by (apply mul_nonneg; [apply mul_nonneg; [|apply mul_nonneg]|]; qc_lra).
    assert (0 <= (S - 1) * M * (G - (WA + WB))) by (apply mul_nonneg; [apply mul_nonneg|]; qc_lra).
    assert (0 <= M * (G - 1 - (EA + EB))) by (apply mul_nonneg; qc_lra). qc_lra.
Qed.
End Blend.
