(** Knot insertion and splitting as statements about sums over the basis. *)
From Coq Require Import List ZArith QArith Qcanon Bool Lia Lqa Field.
From Verif Require Import Base BaseFacts LoopFacts ModelVec ModelAabb ModelNurbs SpecNurbs ProofBspline ProofInsertion ProofNurbs ProofInsertCurve ProofInsertKnot ProofCurve ProofSplit.
Import ListNotations.
Open Scope Qc_scope.

Definition ins_knots (U : list Qc) (k : nat) (t : Qc) (r : nat) : list Qc :=
  firstn (k + 1) U ++ repeat t r ++ skipn (k + 1) U.

Lemma ins_sum1 n p U k t r u (Q : nat -> Qc) : valid_knots n p U -> (p <= k <= n)%nat -> knot U k <= t -> t < knot U (S k) ->
  in_domain n p U u ->
  qsum (fun i => basis_at (ins_knots U k t r) (n + r) p u i * pq (knot U) k p t Q r i) (S (n + r)) =
  qsum (fun i => basis_at U n p u i * Q i) (S n).
Proof.
  intros V Hk T1 T2 D. pose proof V as (Hpn & HL & HS & HN). pose proof D as (D1 & D2).
  pose proof (sorted_mono U HS) as M.
  destruct (find_span_spec n p U u V D) as (s & _ & Hs & IS).
  destruct (insr_span (knot U) k t M T1 T2 r n s u) as (s' & A & B & C);
    [lia|assumption|eapply valid_span_ok; eassumption|].
  assert (forall i, knot (ins_knots U k t r) i = insr (knot U) k t r i) as KV by (intros; apply kv_knot; lia).
  rewrite (qsum_ext (fun i => basis_at U n p u i * Q i) (fun i => bsp (knot U) s p i u * Q i)).
  2:{ intros i _. rewrite (basis_at_bsp n p U u s) by assumption. reflexivity. }
  rewrite (C p Q) by lia.
  apply qsum_ext. intros i Hi. f_equal. unfold basis_at.
  rewrite (bspline_bsp _ _ _ _ _ s').
  - apply bsp_ext. assumption.
  - apply is_span_pick.
    + eapply mono_ext; [intros; symmetry; apply KV|]. apply insr_mono; assumption.
    + eapply is_span_ext; [intros; symmetry; apply KV|]. assumption.
    + rewrite KV. rewrite (insr_hi _ _ _ r _ (S n)) by lia. rewrite <- (Nat.add_1_r n). assumption.
Qed.

Lemma frac_01 (t a b : Qc) : a <= t -> t < b -> 0 <= (t - a) / (b - a) /\ (t - a) / (b - a) <= 1.
Proof.
  intros A B. split.
  - apply Qcdiv_nonneg; qc_lra.
  - assert (0 <= (b - t) / (b - a)) as H by (apply Qcdiv_nonneg; qc_lra).
    assert ((t - a) / (b - a) = 1 - (b - t) / (b - a)) as -> by (field; apply Qcsub_pos; qc_lra). qc_lra.
Qed.

Lemma al_01 (U : nat -> Qc) k t p i : mono U -> U k <= t -> t < U (S k) -> 0 <= al U k t p i /\ al U k t p i <= 1.
Proof.
  intros M A B. unfold al. destruct (Nat.leb_spec (i + p) k); [split; qc_lra|]. destruct (Nat.ltb_spec k i); [split; qc_lra|].
  assert (U i <= U k) by (apply M; lia). assert (U (S k) <= U (i + p)%nat) by (apply M; lia).
  apply frac_01; qc_lra.
Qed.

Lemma pq_pos (U : nat -> Qc) k p t n (Q : nat -> Qc) : mono U -> U k <= t -> t < U (S k) -> (k <= n)%nat ->
  (forall i, (i < S n)%nat -> 0 < Q i) -> forall r i, (i < S n + r)%nat -> 0 < pq U k p t Q r i.
Proof.
  intros M T1 T2 Hk HQ. induction r; intros i Hi; cbn [pq]; [apply HQ; lia|]. cbv zeta.
  destruct (Nat.eq_dec i (S n + r)) as [->|].
  - rewrite al_hi by lia. assert (0 < pq U k p t Q r (S n + r - 1)) by (apply IHr; lia).
    replace (0 * pq U k p t Q r (S n + r) + (1 - 0) * pq U k p t Q r (S n + r - 1)) with (pq U k p t Q r (S n + r - 1)) by ring. assumption.
  - destruct (insr_le U k t T1 T2 r) as [A B].
    destruct (al_01 (insr U k t r) (k + r) t p i) as [C D]; [apply insr_mono; assumption|assumption|assumption|].
    assert (0 < pq U k p t Q r i) by (apply IHr; lia). assert (0 < pq U k p t Q r (i - 1)) by (apply IHr; lia).
    set (a := al _ _ _ _ _) in *. set (x := pq U k p t Q r i) in *. set (y := pq U k p t Q r (i - 1)) in *.
    destruct (Qcle_lt_or_eq _ _ C) as [C'|C'].
    + assert (0 <= (1 - a) * y) by (apply Qcmul_nonneg; qc_lra). assert (0 < a * x) by qc_nra. qc_lra.
    + rewrite <- C'. replace (0 * x + (1 - 0) * y) with y by ring. assumption.
Qed.

(** The two knot vectors a split produces, and the sums over them *)
Section SplitSums.
  Variables (U : list Qc) (n p k : nat) (t : Qc).
  Hypothesis V : valid_knots n p U.
  Hypothesis Hp : (1 <= p)%nat.
  Hypothesis Hk : (p <= k <= n)%nat.
  Hypothesis T1 : knot U k <= t.
  Hypothesis T2 : t < knot U (S k).
  Hypothesis D1 : knot U p < t.
  Hypothesis Hm : (multiplicity U t <= p)%nat.
  Let s := multiplicity U t.
  Let r := (p - s)%nat.
  Let a := (k - s)%nat.
  Let kv := ins_knots U k t r.
  Definition split_left : list Qc := firstn (k + r + 1) kv ++ [t].
  Definition split_right : list Qc := repeat t (p + 1) ++ skipn (k + r + 1) kv.

  Lemma split_sums :
    (p <= a)%nat /\ (a + p = k + r)%nat /\ (s <= S k)%nat /\ (forall i, (k - s < i <= k)%nat -> knot U i = t) /\
    valid_knots a p split_left /\ valid_knots (n + r - a) p split_right /\
    knot split_left p = knot U p /\ knot split_left (a + 1) = t /\
    knot split_right p = t /\ knot split_right (n + r - a + 1) = knot U (n + 1) /\
    valid_knots (n + r) p kv /\ find_span (n + r) p t kv = Ok (k + r)%nat /\ find_span n p t U = Ok k /\
    (forall u (Q : nat -> Qc), knot U p <= u -> u <= t ->
      qsum (fun i => basis_at split_left a p u i * Q i) (S a) = qsum (fun i => basis_at kv (n + r) p u i * Q i) (S (n + r))) /\
    (forall u (Q : nat -> Qc), t <= u -> u <= knot U (n + 1) ->
      qsum (fun i => basis_at split_right (n + r - a) p u i * Q (a + i)%nat) (S (n + r - a)) =
      qsum (fun i => basis_at kv (n + r) p u i * Q i) (S (n + r))).
  Proof.
    pose proof V as (Hpn & HL & HS & HN). pose proof (sorted_mono U HS) as M.
    destruct (multiplicity_span U k t HS ltac:(lia) T1 T2) as (S1 & S2 & S3). fold s in S1, S2, S3.
    assert (D2 : t < knot U (n + 1)). { assert (knot U (S k) <= knot U (n + 1)) by (apply M; lia). qc_lra. }
    assert (s <= p)%nat as Hsp by exact Hm.
    destruct (inserted_valid n p U k t r V Hk T1 T2) as (V' & Vp & Vn). fold (ins_knots U k t r) in V', Vp, Vn. fold kv in V', Vp, Vn.
    pose proof V' as (Hpn' & HL' & HS' & HN'). pose proof (sorted_mono kv HS') as M'.
    assert (forall i, knot kv i = insr (knot U) k t r i) as KV by (intros; apply kv_knot; lia).
    destruct (insr_le (knot U) k t T1 T2 r) as [IL1 IL2]. rewrite <- !KV in IL1, IL2.
    assert (a + p = k + r)%nat as Hap by (unfold a, r; lia).
    assert (knot U a < t) as Hat.
    { unfold a. destruct (Nat.eq_dec s 0) as [E0|].
      - destruct (Qcle_lt_or_eq _ _ T1) as [L|E]; [rewrite E0, Nat.sub_0_r; exact L|].
        exfalso. assert (In t U) as It by (rewrite <- E, knot_nth by lia; apply nth_In; lia).
        unfold s, multiplicity in E0. assert (In t (filter (Qceqb t) U)) as F by (apply filter_In; split; [exact It|qcb; reflexivity]).
        destruct (filter (Qceqb t) U); [destruct F|discriminate].
      - apply S2. lia. }
    assert (p <= a)%nat as Hpa.
    { destruct (Nat.le_gt_cases p a); [assumption|]. exfalso. assert (knot U p = t) as E by (apply S3; unfold a in *; lia). rewrite E in D1. qc_lra. }
    assert (knot kv a < t) as Va by (rewrite KV, insr_lo by (unfold a; lia); assumption).
    assert (forall j, (a < j <= a + p)%nat -> knot kv j = t) as Vt.
    { intros j Hj. rewrite KV. destruct (Nat.le_gt_cases j k).
      - rewrite insr_lo by assumption. apply S3. unfold a in *; lia.
      - apply insr_mid. lia. }
    assert (t < knot kv (a + p + 1)) as Vb.
    { replace (a + p + 1)%nat with (S (k + r)) by lia. assumption. }
    assert (length kv = (n + r + p + 2)%nat) as LK by lia.
    assert (length split_left = (a + p + 2)%nat) as L1.
    { unfold split_left. rewrite app_length, firstn_length. cbn [length]. lia. }
    assert (length split_right = (n + r - a + p + 2)%nat) as L2.
    { unfold split_right. rewrite app_length, repeat_length, skipn_length. lia. }
    assert (forall i, knot split_left i = left_knots (knot kv) a p t i) as KN1.
    { intros i. unfold left_knots. unfold knot at 1. unfold split_left at 2. rewrite last_last.
      unfold split_left. destruct (Nat.leb_spec i (a + p)).
      - rewrite app_nth1 by (rewrite firstn_length; lia). rewrite nth_firstn_lt by lia. rewrite knot_nth by lia. apply nth_indep. lia.
      - destruct (Nat.eq_dec i (a + p + 1)) as [->|].
        + rewrite app_nth2 by (rewrite firstn_length; lia). rewrite firstn_length.
          replace (a + p + 1 - Nat.min (k + r + 1) (length kv))%nat with 0%nat by lia. reflexivity.
        + apply nth_overflow. rewrite app_length, firstn_length. cbn [length]. lia. }
    assert (forall i, knot split_right i = right_knots (knot kv) a p t i) as KN2.
    { intros i. unfold right_knots.
      assert (skipn (k + r + 1) kv <> []) as SNE. { intros E. apply (f_equal (@length Qc)) in E. rewrite skipn_length in E. cbn in E. lia. }
      assert (last split_right 0 = last kv 0) as EL.
      { destruct (exists_last SNE) as (l & x & Ex). unfold split_right. rewrite Ex, app_assoc, last_last.
        rewrite <- (firstn_skipn (k + r + 1) kv), Ex, app_assoc, last_last. reflexivity. }
      unfold knot at 1. rewrite EL. unfold split_right. destruct (Nat.leb_spec i p).
      - rewrite app_nth1 by (rewrite repeat_length; lia). rewrite (nth_indep _ _ t) by (rewrite repeat_length; lia). apply nth_repeat.
      - rewrite app_nth2 by (rewrite repeat_length; lia). rewrite repeat_length, nth_skipn_add.
        unfold knot. f_equal. lia. }
    assert (mono (left_knots (knot kv) a p t)) as LM by (apply (left_mono (knot kv) a p (n + r) t); try lia; assumption).
    assert (mono (right_knots (knot kv) a p t)) as RM by (apply (right_mono (knot kv) a p (n + r) t); try lia; assumption).
    assert (valid_knots a p split_left) as V1.
    { split; [assumption|]. split; [lia|]. split; [apply mono_sorted; eapply mono_ext; [intros; symmetry; apply KN1|exact LM]|].
      rewrite !KN1. unfold left_knots. destruct (Nat.leb_spec a (a + p)); [|lia]. destruct (Nat.leb_spec (a + 1) (a + p)); [|lia].
      rewrite (Vt (a + 1)%nat) by lia. assumption. }
    assert (valid_knots (n + r - a) p split_right) as V2.
    { split; [lia|]. split; [lia|]. split; [apply mono_sorted; eapply mono_ext; [intros; symmetry; apply KN2|exact RM]|].
      rewrite !KN2. unfold right_knots.
      destruct (Nat.leb_spec (n + r - a + 1) p); [lia|].
      replace (a + (n + r - a + 1))%nat with (n + r + 1)%nat by lia.
      destruct (Nat.leb_spec (n + r - a) p).
      - rewrite Vn. assumption.
      - replace (a + (n + r - a))%nat with (n + r)%nat by lia. assumption. }
    assert (forall u, in_domain n p U u -> exists s0, is_span (knot kv) (n + r) s0 u /\ u <= knot kv (S (n + r))) as SPN.
    { intros u (Hu1 & Hu2). destruct (find_span_spec (n + r) p kv u V') as (s0 & _ & _ & IS).
      - split; [rewrite Vp; assumption|rewrite Vn; assumption].
      - exists s0. split; [assumption|]. rewrite <- (Nat.add_1_r (n + r)), Vn. assumption. }
    assert (knot kv (n + r) < knot kv (S (n + r))) as HN''. { rewrite <- (Nat.add_1_r (n + r)). assumption. }
    assert (knot split_left p = knot U p) as E1.
    { rewrite KN1. unfold left_knots. destruct (Nat.leb_spec p (a + p)); [|lia]. assumption. }
    assert (knot split_left (a + 1) = t) as E2.
    { rewrite KN1. unfold left_knots. destruct (Nat.leb_spec (a + 1) (a + p)); [|lia]. apply Vt. lia. }
    assert (knot split_right p = t) as E3.
    { rewrite KN2. unfold right_knots. destruct (Nat.leb_spec p p); [reflexivity|lia]. }
    assert (knot split_right (n + r - a + 1) = knot U (n + 1)) as E4.
    { rewrite KN2. unfold right_knots. destruct (Nat.leb_spec (n + r - a + 1) p); [lia|].
      replace (a + (n + r - a + 1))%nat with (n + r + 1)%nat by lia. assumption. }
    split; [assumption|]. split; [assumption|]. split; [lia|].
    split; [intros i Hi; apply S3; lia|].
    split; [assumption|]. split; [assumption|].
    split; [assumption|]. split; [assumption|]. split; [assumption|]. split; [assumption|].
    split; [assumption|]. split; [apply find_span_at; lia || assumption|].
    split; [apply find_span_at; lia || assumption|]. split.
    - intros u Q Hu1 Hu2.
      assert (in_domain n p U u) as DU by (split; [assumption|qc_lra]).
      destruct (SPN u DU) as (s0 & IS & ISu).
      destruct (left_sum (knot kv) a p (n + r) t M' ltac:(lia) ltac:(lia) Vt Va Vb u Q s0 IS ISu HN'' Hu2 Hpa) as (s1 & IS1 & _ & Es).
      rewrite (qsum_ext (fun i => basis_at kv (n + r) p u i * Q i) (fun i => bsp (knot kv) s0 p i u * Q i)).
      2:{ intros i _. rewrite (basis_at_bsp (n + r) p kv u s0); [reflexivity|assumption| |assumption].
          destruct DU. split; [rewrite Vp|rewrite Vn]; assumption. }
      rewrite <- Es. apply qsum_ext. intros i Hi. f_equal.
      rewrite (basis_at_bsp a p split_left u s1).
      + apply bsp_ext. exact KN1.
      + assumption.
      + split; [rewrite E1; assumption|rewrite E2; assumption].
      + eapply is_span_ext; [intros; symmetry; apply KN1|exact IS1].
    - intros u Q Hu1 Hu2.
      assert (in_domain n p U u) as DU by (split; [qc_lra|assumption]).
      destruct (SPN u DU) as (s0 & IS & ISu).
      destruct (right_sum (knot kv) a p (n + r) t M' ltac:(lia) ltac:(lia) Vt Vb u Q s0 IS ISu HN'' Hu1) as (s1 & IS1 & _ & Es).
      rewrite (qsum_ext (fun i => basis_at kv (n + r) p u i * Q i) (fun i => bsp (knot kv) s0 p i u * Q i)).
      2:{ intros i _. rewrite (basis_at_bsp (n + r) p kv u s0); [reflexivity|assumption| |assumption].
          destruct DU. split; [rewrite Vp|rewrite Vn]; assumption. }
      rewrite <- Es. apply qsum_ext. intros i Hi. f_equal.
      rewrite (basis_at_bsp (n + r - a) p split_right u s1).
      + apply bsp_ext. exact KN2.
      + assumption.
      + split; [rewrite E3; assumption|rewrite E4; assumption].
      + eapply is_span_ext; [intros; symmetry; apply KN2|exact IS1].
  Qed.
End SplitSums.
