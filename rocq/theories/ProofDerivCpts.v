(** Proofs about the control points of derivatives of curves. *)
From Coq Require Import List ZArith QArith Qcanon Bool Lia Lqa Field.
From Verif Require Import Base BaseFacts LoopFacts ModelVec ModelNurbs ModelSurface ModelRefine SpecNurbs SpecDerivative SpecRefine
  ProofBspline ProofNurbs ProofInsertCurve ProofSurface ProofInsertKnot ProofSmooth ProofDerivative ProofHodograph ProofRefine.
Import ListNotations.
Open Scope Qc_scope.

(** ** the recursion and its meaning *)
Fixpoint dcp (U : nat -> Qc) (p : nat) (f : nat -> Qc) (k i : nat) : Qc :=
  match k with
  | O => f i
  | S k' => Qc_of_nat (p - k') * (dcp U p f k' (S i) - dcp U p f k' i) / (U (i + p + 1)%nat - U (i + k)%nat)
  end.

Lemma dcp_inner U p f k : forall i, dcp U (S p) f (S k) i = dcp (fun j => U (S j)) p (fun j => dcp U (S p) f 1 j) k i.
Proof.
  induction k as [|k IH]; intros i; [reflexivity|].
  change (dcp U (S p) f (S (S k)) i) with (Qc_of_nat (S p - S k) * (dcp U (S p) f (S k) (S i) - dcp U (S p) f (S k) i) / (U (i + S p + 1)%nat - U (i + S (S k))%nat)).
  rewrite !IH. cbn [dcp]. replace (S p - S k)%nat with (p - k)%nat by lia. replace (i + S p + 1)%nat with (S (i + p + 1)) by lia. replace (i + S (S k))%nat with (S (i + S k)) by lia. reflexivity.
Qed.

Lemma dcp_sum1 U s k q n f u : (S q <= s)%nat -> (s <= n)%nat ->
  qsum (fun i => bspd U s (S k) (S q) i u * f i) (S n) = qsum (fun i => bspd (fun j => U (S j)) (s - 1) k q i u * dcp U (S q) f 1 i) n.
Proof.
  intros Hs Hn. set (A := fun i => bspd U s k q i u / (U (i + S q)%nat - U i)).
  rewrite (qsum_ext _ (fun i => Qc_of_nat (S q) * ((A i - A (S i)) * f i))).
  2:{ intros i _. rewrite bspd_S. unfold A. replace (i + 1)%nat with (S i) by lia. replace (i + S q + 1)%nat with (S i + S q)%nat by lia. ring. }
  rewrite qsum_scale, abel. assert (A 0%nat = 0) as ->. { unfold A. rewrite bspd_left by lia. unfold Qcdiv. ring. }
  assert (A (S n) = 0) as ->. { unfold A. rewrite bspd_right by lia. unfold Qcdiv. ring. }
  replace (0 * f 0%nat - 0 * f n) with 0 by ring. rewrite Qcplus_0_l, <- qsum_scale. apply qsum_ext. intros i _. unfold A. cbn [dcp].
  pose proof (bspd_shift U 1 (s - 1) k q i u) as B1. replace (1 + (s - 1))%nat with s in B1 by lia. change (fun j => U (1 + j)%nat) with (fun j => U (S j)) in B1. rewrite <- B1.
  change (1 + i)%nat with (S i). replace (i + S q + 1)%nat with (S i + S q)%nat by lia. replace (i + 1)%nat with (S i) by lia. replace (S q - 0)%nat with (S q) by lia. unfold Qcdiv. ring.
Qed.

Lemma dcp_sum k : forall U s p n f u, (k <= p)%nat -> (p <= s)%nat -> (s <= n)%nat ->
  qsum (fun i => bspd U s k p i u * f i) (S n) = qsum (fun i => bsp (fun j => U (k + j)%nat) (s - k) (p - k) i u * dcp U p f k i) (S (n - k)).
Proof.
  induction k as [|k IH]; intros U s p n f u Hk Hp Hs.
  - rewrite !Nat.sub_0_r. apply qsum_ext. intros i _. reflexivity.
  - destruct p as [|q]; [lia|]. destruct n as [|n]; [lia|]. rewrite dcp_sum1 by lia. rewrite IH by lia.
    replace (S n - S k)%nat with (n - k)%nat by lia. apply qsum_ext. intros i _. rewrite dcp_inner.
    replace (s - S k)%nat with (s - 1 - k)%nat by lia. reflexivity.
Qed.

(** ** trimmed knots *)
Lemma trimmed_length k U : length (trimmed k U) = (length U - 2 * k)%nat.
Proof. unfold trimmed. rewrite firstn_length, skipn_length. lia. Qed.
Lemma trimmed_knot k U i : (i < length U - 2 * k)%nat -> knot (trimmed k U) i = knot U (k + i).
Proof.
  intros H. rewrite knot_nth by (rewrite trimmed_length; exact H). unfold trimmed. rewrite nth_firstn_lt by exact H. rewrite nth_skipn_add. rewrite <- knot_nth by lia. reflexivity.
Qed.
Lemma trimmed_valid n p k U : valid_knots n p U -> (k <= p)%nat -> valid_knots (n - k) (p - k) (trimmed k U).
Proof.
  intros (Hp & HL & So & N) Hk. pose proof (sorted_mono _ So) as M. split; [lia|]. split; [rewrite trimmed_length; lia|]. split.
  - intros i j Hij Hj. rewrite trimmed_length in Hj. rewrite <- !knot_nth by (rewrite trimmed_length; lia). rewrite !trimmed_knot by lia. apply M. lia.
  - rewrite !trimmed_knot by lia. replace (k + (n - k))%nat with n by lia. replace (k + (n - k + 1))%nat with (n + 1)%nat by lia. exact N.
Qed.
Lemma trimmed_domain n p k U t : valid_knots n p U -> (k <= p)%nat -> in_domain (n - k) (p - k) (trimmed k U) t <-> in_domain n p U t.
Proof.
  intros (Hp & HL & So & N) Hk. unfold in_domain. rewrite !trimmed_knot by lia.
  replace (k + (n - k + 1))%nat with (n + 1)%nat by lia. replace (k + (p - k))%nat with p by lia. reflexivity.
Qed.

Lemma trimmed_phi n p k U (f g : nat -> Qc) t : valid_knots n p U -> (k <= p)%nat -> in_domain n p U t ->
  (forall i, (i <= n - k)%nat -> g i = dcp (knot U) p f k i) ->
  qsum (fun i => basis_at (trimmed k U) (n - k) (p - k) t i * g i) (S (n - k)) = phi U n p k f t.
Proof.
  intros V Hk D E. destruct (sp_ok _ _ _ _ V D) as (_ & Hs & I). rewrite (phi_span U n p k f t _ V D I). set (s := sp n p U t) in *.
  pose proof I as (A & B & C). pose proof V as (Hp & HL & So & N). unfold dsum. rewrite dcp_sum by lia.
  pose proof (trimmed_valid n p k U V Hk) as V'. apply (trimmed_domain n p k U t V Hk) in D as D'.
  assert (is_span (knot (trimmed k U)) (n - k) (s - k) t) as I'.
  { split; [lia|]. rewrite !trimmed_knot by lia. replace (k + (s - k))%nat with s by lia. split; [exact B|].
    replace (k + S (s - k))%nat with (S s) by lia. destruct C as [C|[C1 C2]]; [left; exact C|]. right. split; [lia|]. replace (k + S (n - k))%nat with (S n) by lia. exact C2. }
  apply qsum_ext. intros i Hi. rewrite E by lia. f_equal. rewrite (basis_at_bsp (n - k) (p - k) (trimmed k U) t (s - k)) by assumption.
  apply bsp_ext. intros j Hj. apply trimmed_knot. lia.
Qed.

(** ** the program *)
Lemma v4quot_ok a k : k <> 0 -> v4quot a k = Ok (V4 (wx a / k) (wy a / k) (wz a / k) (ww a / k)).
Proof. intros H. unfold v4quot. rewrite !qdiv_ok by assumption. reflexivity. Qed.

Definition row_ok (p : nat) (U : list Qc) (P : list vec4) (r1 r k : nat) (row : list vec4) : Prop :=
  length row = (r + 1)%nat /\ forall i c, (i + k <= r)%nat -> coordinate c -> c (nth i row d4) = dcp (knot U) p (coord c P) k (r1 + i).

Lemma entry_ok p U P r1 r k row i : row_ok p U P r1 r k row -> (i + S k <= r)%nat -> (r1 + r + p + 1 < length U)%nat -> (k < p)%nat ->
  knot U (r1 + i + S k) < knot U (r1 + i + p + 1) ->
  exists e, deriv_entry p r1 U (S k) row i = Ok e /\ forall c, coordinate c -> c e = dcp (knot U) p (coord c P) (S k) (r1 + i).
Proof.
  intros (L & H) Hi HU Hk D. unfold deriv_entry. rewrite (get_ok U _ 0) by lia. cbn [bind]. rewrite (get_ok U _ 0) by lia. cbn [bind].
  rewrite (get_ok row _ d4) by lia. cbn [bind]. rewrite (get_ok row _ d4) by lia. cbn [bind]. rewrite <- !knot_nth by lia.
  assert (knot U (r1 + i + p + 1) - knot U (r1 + i + S k) <> 0) as NZ by (apply Qcsub_pos; assumption).
  rewrite v4quot_ok by exact NZ. eexists. split; [reflexivity|]. intros c Hc.
  pose proof (H i c ltac:(lia) Hc) as H0. pose proof (H (i + 1)%nat c ltac:(lia) Hc) as H1.
  replace (Z.of_nat p - Z.of_nat (S k) + 1)%Z with (Z.of_nat (p - k)) by lia. change (Qc_of_Z (Z.of_nat (p - k))) with (Qc_of_nat (p - k)).
  cbn [dcp]. replace (S (r1 + i)) with (r1 + (i + 1))%nat by lia. rewrite <- H0, <- H1.
  destruct Hc as [->|[->|[->| ->]]]; unfold v4scale, v4axpy; cbn [wx wy wz ww]; unfold Qcdiv; f_equal; ring.
Qed.

Lemma rows_ok p U P r1 r : (r1 + r + p + 1 < length U)%nat -> forall count k row, row_ok p U P r1 r k row -> (k + count <= p)%nat ->
  (forall j i, (k < j <= k + count)%nat -> (i + j <= r)%nat -> knot U (r1 + i + j) < knot U (r1 + i + p + 1)) ->
  exists rows, deriv_rows p r1 r U (S k) count row = Ok rows /\ length rows = count /\ forall j, (j < count)%nat -> row_ok p U P r1 r (S k + j) (nth j rows []).
Proof.
  intros HU. induction count as [|count IH]; intros k row R Hk D; cbn [deriv_rows]; [exists []; split; [reflexivity|]; split; [reflexivity|intros; lia]|].
  destruct (mapM_ex (deriv_entry p r1 U (S k) row) (fun i e => forall c, coordinate c -> c e = dcp (knot U) p (coord c P) (S k) (r1 + i)) (seq 0 (r + 1 - S k))) as (es & E & F).
  { intros i Hi. apply in_seq in Hi. apply (entry_ok p U P r1 r k row i R); try lia. apply D; lia. }
  rewrite E. cbn [bind]. pose proof (Forall2_length _ _ _ F) as LF. rewrite seq_length in LF.
  assert (row_ok p U P r1 r (S k) (es ++ repeat v4zero (Nat.min (S k) (r + 1)))) as R'.
  { split; [rewrite app_length, repeat_length; lia|]. intros i c Hi Hc. rewrite app_nth1 by lia.
    assert (forall l es', Forall2 (fun i e => forall c, coordinate c -> c e = dcp (knot U) p (coord c P) (S k) (r1 + i)) l es' ->
       forall i, (i < length es')%nat -> c (nth i es' d4) = dcp (knot U) p (coord c P) (S k) (r1 + nth i l 0%nat)) as G.
    { clear - Hc. induction 1 as [|a e l es' H F IH]; intros i Hi; cbn [length] in Hi; [lia|]. destruct i; [apply H; assumption|apply IH; lia]. }
    rewrite (G _ _ F) by lia. rewrite seq_nth by lia. reflexivity. }
  destruct (IH (S k) _ R') as (rows & E' & L & H); [lia|intros; apply D; lia|]. cbv zeta. rewrite E'. cbn [bind]. eexists. split; [reflexivity|]. split; [cbn; lia|].
  intros [|j] Hj; cbn [nth]; [rewrite Nat.add_0_r; exact R'|]. replace (S k + S j)%nat with (S (S k) + j)%nat by lia. apply H. lia.
Qed.

Lemma deriv_cpts_rows p U P d r1 r2 n : length P = S n -> length U = (n + p + 2)%nat -> (r1 <= r2 <= n)%nat -> (d <= p)%nat ->
  (forall j i, (0 < j <= d)%nat -> (i + j <= r2 - r1)%nat -> knot U (r1 + i + j) < knot U (r1 + i + p + 1)) ->
  exists PK, curve_deriv_cpts p U P d r1 r2 = Ok PK /\ length PK = S d /\ nth 0 PK [] = firstn (r2 - r1 + 1) (skipn r1 P) /\ forall k, (k <= d)%nat -> row_ok p U P r1 (r2 - r1) k (nth k PK []).
Proof.
  intros LP LU Hr Hd D. unfold curve_deriv_cpts. destruct P as [|P0 P'] eqn:EP; [cbn in LP; lia|]. rewrite <- EP in *. clear EP.
  rewrite minus_ok by lia. cbn [bind].
  rewrite (mapM_map _ (fun i => nth (r1 + i) P d4)). 2:{ intros i Hi. apply in_seq in Hi. apply get_ok. lia. }
  cbn [bind]. set (row := map (fun i => nth (r1 + i) P d4) (seq 0 (r2 - r1 + 1))).
  assert (row = firstn (r2 - r1 + 1) (skipn r1 P)) as ER.
  { apply (nth_ext_len _ _ d4); [unfold row; rewrite map_length, seq_length, firstn_length, skipn_length; lia|].
    intros i Hi. unfold row in *. rewrite map_length, seq_length in Hi. rewrite nth_firstn_lt by lia. rewrite nth_skipn_add.
    rewrite (nth_indep _ d4 ((fun i => nth (r1 + i) P d4) 0%nat)) by (rewrite map_length, seq_length; lia). rewrite (map_nth (fun i => nth (r1 + i) P d4)), seq_nth by lia. reflexivity. }
  assert (row_ok p U P r1 (r2 - r1) 0 row) as R0.
  { split; [unfold row; rewrite map_length, seq_length; reflexivity|]. intros i c Hi _. rewrite ER. rewrite nth_firstn_lt by lia. rewrite nth_skipn_add. reflexivity. }
  destruct (rows_ok p U P r1 (r2 - r1) ltac:(lia) d 0 row R0 ltac:(lia)) as (rows & E & L & H). { intros j i Hj Hi. apply D; lia. }
  rewrite E. cbn [bind]. eexists. split; [reflexivity|]. split; [cbn; lia|]. split; [exact ER|]. intros [|k] Hk; [exact R0|]. cbn [nth]. apply (H k). lia.
Qed.

Lemma inner_denominators n p U d : valid_knots n p U -> knot U p < knot U (p + 1) -> (d <= p)%nat -> inner_multiplicity n p U (p + 1 - d) ->
  forall j i, (0 < j <= d)%nat -> (i + j <= n)%nat -> knot U (i + j) < knot U (i + p + 1).
Proof.
  intros (Hp & HL & So & N) H1 Hd IM j i Hj Hi. pose proof (sorted_mono _ So) as M. assert (knot U (i + j) <= knot U (i + p + 1)) as L by (apply M; lia).
  destruct (Qceqb_spec (knot U (i + j)) (knot U (i + p + 1))) as [E|E]; [|destruct (Qc_neq_or _ _ E); [assumption|exfalso; qc_lra]]. exfalso.
  assert (forall y, (i + j <= y <= i + p + 1)%nat -> knot U y = knot U (i + j)) as A.
  { intros y Hy. apply Qcle_antisym; [rewrite E|]; apply M; lia. }
  assert (knot U (p + 1) <= knot U (i + p + 1)) by (apply M; lia). assert (knot U (i + j) <= knot U n) by (apply M; lia).
  pose proof (IM (knot U (i + j)) ltac:(qc_lra) ltac:(qc_lra)) as X.
  assert (p + 2 - j <= multiplicity U (knot U (i + j)))%nat; [|lia]. apply (mult_range U _ (i + j)). intros y Hy. split; [lia|]. rewrite <- knot_nth by lia. apply A. lia.
Qed.

Lemma slope_ext f g (dom : Qc -> Prop) t d : (forall x, dom x -> f x = g x) -> dom t -> slope f dom t d -> slope g dom t d.
Proof.
  intros E Dt H eps He. destruct (H eps He) as (a & A & HA). exists a. split; [assumption|]. intros t' D L. rewrite <- !E by assumption. apply HA; assumption.
Qed.

Lemma deriv_cpts_ok n p U P d : valid_knots n p U -> length P = S n -> (d <= p)%nat -> knot U p < knot U (p + 1) -> inner_multiplicity n p U (p + 1 - d) ->
  exists PK, curve_deriv_cpts p U P d 0 n = Ok PK /\ length PK = S d /\ nth 0 PK [] = P /\
  forall k c t, (k < d)%nat -> coordinate c -> in_domain n p U t ->
    let f := combination c (trimmed k U) (n - k) (p - k) (nth k PK []) in
    let v := combination c (trimmed (S k) U) (n - S k) (p - S k) (nth (S k) PK []) t in
    has_slope f (fun t' => in_domain n p U t' /\ t <= t') t v /\
    (t <= knot U p \/ knot U (n + 1) <= t \/ (multiplicity U t + k + 1 <= p)%nat -> has_slope f (in_domain n p U) t v).
Proof.
  intros V LP Hd H1 IM. pose proof V as (Hp & HL & So & N).
  destruct (deriv_cpts_rows p U P d 0 n n LP HL ltac:(lia) Hd) as (PK & E & L & E0 & R).
  { intros j i Hj Hi. apply (inner_denominators n p U d V H1 Hd IM); lia. }
  exists PK. split; [exact E|]. split; [exact L|]. split; [rewrite E0; apply firstn_all2; cbn [skipn]; lia|].
  intros k c t Hk Hc D f v.
  assert (forall j x, (j <= d)%nat -> in_domain n p U x -> combination c (trimmed j U) (n - j) (p - j) (nth j PK []) x = phi U n p j (coord c P) x) as EQ.
  { intros j x Hj Dx. unfold combination. apply trimmed_phi; [assumption|lia|assumption|]. intros i Hi. destruct (R j Hj) as (_ & RR). rewrite RR by (try assumption; lia). reflexivity. }
  unfold v. rewrite (EQ (S k) t) by (assumption || lia). split.
  - apply (slope_ext (phi U n p k (coord c P))); [intros x [Dx _]; symmetry; apply EQ; [lia|assumption]|split; [assumption|apply Qcle_refl]|apply phi_right; assumption].
  - intros H. apply (slope_ext (phi U n p k (coord c P))); [intros x Dx; symmetry; apply EQ; [lia|assumption]|assumption|].
    eapply slope_union; [apply phi_right; eassumption|apply phi_left; eassumption|]. intros t' Dt'. destruct (Qclt_le_dec t' t) as [Lt|Lt]; [right|left]; (split; [exact Dt'|qc_lra]).
Qed.

(** part of the control points: the same values *)
Lemma deriv_cpts_part n p U P d r1 r2 : valid_knots n p U -> length P = S n -> (d <= p)%nat -> knot U p < knot U (p + 1) -> inner_multiplicity n p U (p + 1 - d) ->
  (r1 <= r2 <= n)%nat ->
  exists PK PK', curve_deriv_cpts p U P d 0 n = Ok PK /\ curve_deriv_cpts p U P d r1 r2 = Ok PK' /\ length PK' = S d /\
    forall k i, (k <= d)%nat -> (i + k <= r2 - r1)%nat -> nth i (nth k PK' []) d4 = nth (r1 + i) (nth k PK []) d4.
Proof.
  intros V LP Hd H1 IM Hr. pose proof V as (Hp & HL & So & N).
  destruct (deriv_cpts_rows p U P d 0 n n LP HL ltac:(lia) Hd) as (PK & E & L & E0 & R).
  { intros j i Hj Hi. apply (inner_denominators n p U d V H1 Hd IM); lia. }
  destruct (deriv_cpts_rows p U P d r1 r2 n LP HL Hr Hd) as (PK' & E' & L' & E0' & R').
  { intros j i Hj Hi. apply (inner_denominators n p U d V H1 Hd IM); lia. }
  exists PK, PK'. split; [exact E|]. split; [exact E'|]. split; [exact L'|]. intros k i Hk Hi.
  destruct (R k Hk) as (_ & A). destruct (R' k Hk) as (_ & B).
  assert (forall c, coordinate c -> c (nth i (nth k PK' []) d4) = c (nth (r1 + i) (nth k PK []) d4)) as EQ.
  { intros c Hc. rewrite B, A by (assumption || lia). reflexivity. }
  pose proof (EQ wx (or_introl eq_refl)). pose proof (EQ wy (or_intror (or_introl eq_refl))). pose proof (EQ wz (or_intror (or_intror (or_introl eq_refl)))). pose proof (EQ ww (or_intror (or_intror (or_intror eq_refl)))).
  destruct (nth i (nth k PK' []) d4), (nth (r1 + i) (nth k PK []) d4). cbn in *. congruence.
Qed.
