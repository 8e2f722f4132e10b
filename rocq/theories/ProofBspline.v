(** Theory of B-spline basis functions over the exact numbers: support, sign,
    partition of unity, knot insertion. *)
From Coq Require Import List ZArith QArith Qcanon Bool Lia Lqa Field.
From Verif Require Import Base BaseFacts SpecNurbs.
Import ListNotations.
Open Scope Qc_scope.

Lemma Qcdiv_0_r (a : Qc) : a / 0 = 0.
Proof. unfold Qcdiv. replace (/ 0) with 0 by (apply Qc_is_canon; reflexivity). ring. Qed.

Lemma Qcsub_pos (a b : Qc) : a < b -> b - a <> 0.
Proof. intros H E. qc_lra. Qed.

Lemma Qcdiv_nonneg (a b : Qc) : 0 <= a -> 0 < b -> 0 <= a / b.
Proof.
  intros Ha Hb. unfold Qcdiv. rewrite Qc_le_this, this_mult. rewrite Qc_le_this in Ha. rewrite Qc_lt_this in Hb.
  assert (this (/ b) == / this b)%Q as -> by apply Qred_correct.
  apply Qmult_le_0_compat; [exact Ha | apply Qinv_le_0_compat; apply Qlt_le_weak; exact Hb].
Qed.

Lemma qsum_ext f g n : (forall i, (i < n)%nat -> f i = g i) -> qsum f n = qsum g n.
Proof. induction n; intros H; cbn; [reflexivity|]. rewrite IHn, H; auto. Qed.
Lemma qsum_zero f n : (forall i, (i < n)%nat -> f i = 0) -> qsum f n = 0.
Proof. induction n; intros H; cbn; [reflexivity|]. rewrite IHn, H; auto. Qed.
Lemma qsum_add f g n : qsum (fun i => f i + g i) n = qsum f n + qsum g n.
Proof. induction n; cbn; [ring|]. rewrite IHn. ring. Qed.
Lemma qsum_scale k f n : qsum (fun i => k * f i) n = k * qsum f n.
Proof. induction n; cbn; [ring|]. rewrite IHn. ring. Qed.
Lemma qsum_split f m n : qsum f (m + n) = qsum f m + qsum (fun i => f (m + i)%nat) n.
Proof.
  induction n.
  - rewrite Nat.add_0_r. cbn. ring.
  - rewrite Nat.add_succ_r. cbn. rewrite IHn. ring.
Qed.
Lemma qsum_shift f n : qsum f (S n) = f 0%nat + qsum (fun i => f (S i)) n.
Proof. change (S n) with (1 + n)%nat. rewrite qsum_split. cbn. ring. Qed.
Lemma qsum_nonneg f n : (forall i, (i < n)%nat -> 0 <= f i) -> 0 <= qsum f n.
Proof.
  induction n; intros H; cbn; [qc_lra|].
  assert (0 <= qsum f n) by auto. assert (0 <= f n) by auto. qc_lra.
Qed.
Lemma qsum_le f g n : (forall i, (i < n)%nat -> f i <= g i) -> qsum f n <= qsum g n.
Proof.
  induction n; intros H; cbn; [qc_lra|].
  assert (qsum f n <= qsum g n) by auto. assert (f n <= g n) by auto. qc_lra.
Qed.

(** basis functions for a parameter known to lie in span [s] *)
Fixpoint bsp (U : nat -> Qc) (s p i : nat) (u : Qc) : Qc :=
  match p with
  | O => if Nat.eqb i s then 1 else 0
  | S q => (u - U i) / (U (i + p)%nat - U i) * bsp U s q i u
           + (U (i + p + 1)%nat - u) / (U (i + p + 1)%nat - U (i + 1)%nat) * bsp U s q (i + 1) u
  end.

Lemma bsp_S U s q i u : bsp U s (S q) i u =
  (u - U i) / (U (i + S q)%nat - U i) * bsp U s q i u
           + (U (i + S q + 1)%nat - u) / (U (i + S q + 1)%nat - U (i + 1)%nat) * bsp U s q (i + 1) u.
Proof. reflexivity. Qed.

Definition mono (U : nat -> Qc) : Prop := forall i j, (i <= j)%nat -> U i <= U j.

(** [u] is in the (closed) span [s], which is not empty *)
Definition span_ok (U : nat -> Qc) (s : nat) (u : Qc) : Prop := U s <= u /\ u <= U (S s) /\ U s < U (S s).

Lemma bsp_right U s p i u : (s < i)%nat -> bsp U s p i u = 0.
Proof.
  revert i. induction p; intros i H; cbn [bsp].
  - destruct (Nat.eqb_spec i s); [lia|reflexivity].
  - rewrite !IHp by lia. ring.
Qed.
Lemma bsp_left U s p i u : (i + p < s)%nat -> bsp U s p i u = 0.
Proof.
  revert i. induction p; intros i H; cbn [bsp].
  - destruct (Nat.eqb_spec i s); [lia|reflexivity].
  - rewrite !IHp by lia. ring.
Qed.

Lemma bsp_flat U s p i u : mono U -> span_ok U s u -> U i = U (i + p + 1)%nat -> bsp U s p i u = 0.
Proof.
  intros M (A & B & C) E.
  destruct (Nat.lt_ge_cases s i); [apply bsp_right; lia|].
  destruct (Nat.lt_ge_cases (i + p) s); [apply bsp_left; lia|].
  exfalso. assert (U i <= U s) by (apply M; lia). assert (U (S s) <= U (i + p + 1)%nat) by (apply M; lia). qc_lra.
Qed.

Lemma bsp_nonneg U s p i u : mono U -> span_ok U s u -> 0 <= bsp U s p i u.
Proof.
  intros M (A & B & C). revert i. induction p; intros i; cbn [bsp].
  - destruct (Nat.eqb i s); qc_lra.
  - assert (0 <= (u - U i) / (U (i + S p)%nat - U i) * bsp U s p i u) as H1.
    { destruct (Nat.lt_ge_cases s i) as [L|L]; [rewrite bsp_right by lia; qc_lra|].
      destruct (Nat.lt_ge_cases (i + p) s) as [L2|L2]; [rewrite bsp_left by lia; qc_lra|].
      assert (U i <= U s) by (apply M; lia). assert (U (S s) <= U (i + S p)%nat) by (apply M; lia).
      specialize (IHp i). assert (0 <= (u - U i) / (U (i + S p)%nat - U i)) by (apply Qcdiv_nonneg; qc_lra).
      generalize dependent ((u - U i) / (U (i + S p)%nat - U i)). intros; qc_nra. }
    assert (0 <= (U (i + S p + 1)%nat - u) / (U (i + S p + 1)%nat - U (i + 1)%nat) * bsp U s p (i + 1) u) as H2.
    { destruct (Nat.lt_ge_cases s (i+1)) as [L|L]; [rewrite bsp_right by lia; qc_lra|].
      destruct (Nat.lt_ge_cases (i + 1 + p) s) as [L2|L2]; [rewrite bsp_left by lia; qc_lra|].
      assert (U (i + 1)%nat <= U s) by (apply M; lia). assert (U (S s) <= U (i + S p + 1)%nat) by (apply M; lia).
      specialize (IHp (i+1)%nat).
      assert (0 <= (U (i + S p + 1)%nat - u) / (U (i + S p + 1)%nat - U (i + 1)%nat)) by (apply Qcdiv_nonneg; qc_lra).
      generalize dependent ((U (i + S p + 1)%nat - u) / (U (i + S p + 1)%nat - U (i + 1)%nat)). intros; qc_nra. }
    qc_lra.
Qed.

(** sum over any range covering the support *)
Lemma bsp_sum_support U s p u (f : nat -> Qc) m : (p <= s)%nat -> (s < m)%nat ->
  qsum (fun i => bsp U s p i u * f i) m = qsum (fun r => bsp U s p (s - p + r) u * f (s - p + r)%nat) (S p).
Proof.
  intros Hp Hs. replace m with ((s - p) + (S p + (m - S s)))%nat by lia.
  rewrite qsum_split. rewrite (qsum_zero _ (s - p)).
  2:{ intros i Hi. rewrite bsp_left by lia. ring. }
  rewrite qsum_split. rewrite (qsum_zero _ (m - S s)).
  2:{ intros i Hi. rewrite bsp_right by lia. ring. }
  ring.
Qed.

Lemma bsp_partition U s p u : mono U -> span_ok U s u -> (p <= s)%nat ->
  qsum (fun r => bsp U s p (s - p + r) u) (S p) = 1.
Proof.
  intros M HU. induction p; intros Hp.
  - cbn. replace (s - 0 + 0)%nat with s by lia. rewrite Nat.eqb_refl. ring.
  - set (A := fun r => (u - U (s - S p + r)%nat) / (U (s - S p + r + S p)%nat - U (s - S p + r)%nat) * bsp U s p (s - S p + r) u).
    set (B := fun r => (U (s - S p + r + S p + 1)%nat - u) / (U (s - S p + r + S p + 1)%nat - U (s - S p + r + 1)%nat) * bsp U s p (s - S p + r + 1) u).
    rewrite (qsum_ext _ (fun r => A r + B r)) by (intros; reflexivity).
    rewrite qsum_add. rewrite (qsum_shift A). cbn [qsum].
    change (qsum B (S p) + B (S p)) with (qsum B (S (S p))).
    cbn [qsum]. change (qsum B p + B p) with (qsum B (S p)).
    assert (A 0%nat = 0) as ->. { unfold A. rewrite bsp_left by lia. ring. }
    assert (B (S p) = 0) as ->. { unfold B. rewrite bsp_right by lia. ring. }
    rewrite <- IHp by lia.
    assert (qsum (fun i => A (S i)) (S p) + qsum B (S p) = qsum (fun r => bsp U s p (s - p + r) u) (S p)) as E.
    { rewrite <- qsum_add. apply qsum_ext. intros r Hr. unfold A, B.
      replace (s - S p + S r)%nat with (s - p + r)%nat by lia.
      replace (s - S p + r + 1)%nat with (s - p + r)%nat by lia.
      replace (s - p + r + S p)%nat with (s + r + 1)%nat by lia.
      replace (s - S p + r + S p + 1)%nat with (s + r + 1)%nat by lia.
      destruct HU as (a & b & c).
      assert (U (s - p + r)%nat <= U s) by (apply M; lia). assert (U (S s) <= U (s + r + 1)%nat) by (apply M; lia).
      field. apply Qcsub_pos. qc_lra. }
    rewrite <- E. cbn [qsum]. ring.
Qed.

(** ** The textbook definition agrees with [bsp] *)
Lemma bspline_bsp U n p i u s :
  (forall i, (if u =? U (S n) then Nat.eqb i n else (U i <=? u) && (u <? U (S i))) = Nat.eqb i s) ->
  bspline U n p i u = bsp U s p i u.
Proof.
  intros H. revert i. induction p; intros i; cbn [bspline bsp].
  - rewrite H. reflexivity.
  - rewrite !IHp. reflexivity.
Qed.

(** the span of [u]: what the textbook definition uses *)
Definition is_span (U : nat -> Qc) (n s : nat) (u : Qc) : Prop :=
  (s <= n)%nat /\ U s <= u /\ ((u < U (S s)) \/ (s = n /\ u = U (S n))).

Lemma is_span_pick U n s u : mono U -> is_span U n s u -> u <= U (S n) ->
  forall i, (if u =? U (S n) then Nat.eqb i n else (U i <=? u) && (u <? U (S i))) = Nat.eqb i s.
Proof.
  intros M (Hs & A & B) Hu i.
  destruct (Qceqb_spec u (U (S n))) as [E|E].
  - destruct B as [B|[B _]]; [|subst s; reflexivity].
    exfalso. assert (U (S s) <= U (S n)) by (apply M; lia). qc_lra.
  - destruct B as [B|[_ B]]; [|contradiction].
    destruct (Nat.eqb_spec i s) as [->|Hi].
    + apply andb_true_intro. split; qcb; assumption.
    + apply andb_false_iff. destruct (Nat.lt_ge_cases i s).
      * right. qcb. assert (U (S i) <= U s) by (apply M; lia). qc_lra.
      * left. qcb. assert (U (S s) <= U i) by (apply M; lia). qc_lra.
Qed.

Lemma is_span_ok U n s u : mono U -> is_span U n s u -> U n < U (S n) -> span_ok U s u.
Proof.
  intros M (Hs & A & B) H. destruct B as [B|[-> B]].
  - repeat split; [assumption|qc_lra|qc_lra].
  - repeat split; [assumption|qc_lra|assumption].
Qed.

(** ** Lists as knot functions *)
Lemma knot_nth U i : (i < length U)%nat -> knot U i = nth i U 0.
Proof. intros. unfold knot. apply nth_indep. assumption. Qed.

Lemma knot_past U i : (length U <= i)%nat -> knot U i = nth (length U - 1) U 0.
Proof.
  intros. unfold knot. rewrite nth_overflow by assumption.
  destruct U as [|a U]; [reflexivity|]. generalize (a :: U). intros l.
  clear. induction l using rev_ind; [reflexivity|].
  rewrite last_last, app_length. cbn. rewrite app_nth2 by lia. replace (length l + 1 - 1 - length l)%nat with 0%nat by lia. reflexivity.
Qed.

Lemma sorted_mono U : sorted U -> mono (knot U).
Proof.
  intros S i j H. destruct (Nat.lt_ge_cases j (length U)).
  - rewrite !knot_nth by lia. apply S; assumption.
  - rewrite (knot_past U j) by assumption. destruct (Nat.lt_ge_cases i (length U)).
    + rewrite knot_nth by assumption. apply S; lia.
    + rewrite knot_past by assumption. apply Qcle_refl.
Qed.

Lemma mono_sorted U : mono (knot U) -> sorted U.
Proof. intros M i j H Hj. rewrite <- !knot_nth by lia. apply M. assumption. Qed.
