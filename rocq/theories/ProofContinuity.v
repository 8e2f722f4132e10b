(** Curves do not jump. *)
From Coq Require Import List ZArith QArith Qcanon Lia Bool.
From Verif Require Import Base BaseFacts ModelVec ModelAabb ModelNurbs SpecAabb SpecNurbs SpecCurve SpecDerivative LoopFacts
  ProofBspline ProofNurbs ProofInsertCurve ProofInsertKnot ProofCurve ProofMinimize ProofDecompose ProofSmooth ProofDerivative.
Import ListNotations.
Open Scope Qc_scope.

(** on [-R, R] the function is bounded and moves at most K times as fast as its argument *)
Definition lip (R : Qc) (f : Qc -> Qc) : Prop :=
  exists K, 0 <= K /\ (forall u, Qcabs u <= R -> Qcabs (f u) <= K) /\ forall u v, Qcabs u <= R -> Qcabs v <= R -> Qcabs (f u - f v) <= K * Qcabs (u - v).

Lemma lip_affine R a b : lip R (fun u => a * u + b).
Proof.
  exists (Qcabs a * Qcabs R + Qcabs b + Qcabs a). pose proof (Qcabs_nonneg a). pose proof (Qcabs_nonneg b). pose proof (Qcabs_nonneg R).
  assert (0 <= Qcabs a * Qcabs R) by (apply ProofMinimize.Qcmul_nonneg; assumption). split; [qc_lra|]. split.
  - intros u Hu. eapply Qcle_trans; [apply Qcabs_triangle|]. rewrite Qcabs_mul.
    assert (Qcabs u <= Qcabs R) by (destruct (Qcabs_cases R) as [[? ->]|[? ->]]; pose proof (Qcabs_nonneg u); qc_lra).
    assert (Qcabs a * Qcabs u <= Qcabs a * Qcabs R) by (apply Qcmul_le_l; assumption). qc_lra.
  - intros u v _ _. replace (a * u + b - (a * v + b)) with (a * (u - v)) by ring. rewrite Qcabs_mul.
    rewrite (Qcmult_comm (Qcabs a)), (Qcmult_comm _ (Qcabs (u - v))). apply Qcmul_le_l; [apply Qcabs_nonneg|qc_lra].
Qed.
Lemma lip_ext R f g : (forall u, f u = g u) -> lip R f -> lip R g.
Proof. intros E (K & A & B & C). exists K. split; [assumption|]. split; intros; rewrite <- !E; auto. Qed.
Lemma lip_const R a : lip R (fun _ => a).
Proof. apply (lip_ext R (fun u => 0 * u + a)); [intros; ring|apply lip_affine]. Qed.
Lemma lip_add R f g : lip R f -> lip R g -> lip R (fun u => f u + g u).
Proof.
  intros (K & A & B & C) (K' & A' & B' & C'). exists (K + K'). split; [qc_lra|]. split.
  - intros u Hu. specialize (B u Hu). specialize (B' u Hu). pose proof (Qcabs_triangle (f u) (g u)). qc_lra.
  - intros u v Hu Hv. specialize (C u v Hu Hv). specialize (C' u v Hu Hv). replace (f u + g u - (f v + g v)) with ((f u - f v) + (g u - g v)) by ring.
    pose proof (Qcabs_triangle (f u - f v) (g u - g v)). replace ((K + K') * Qcabs (u - v)) with (K * Qcabs (u - v) + K' * Qcabs (u - v)) by ring. qc_lra.
Qed.
Lemma lip_mul R f g : lip R f -> lip R g -> lip R (fun u => f u * g u).
Proof.
  intros (K & A & B & C) (K' & A' & B' & C'). exists (K * K' + K * K').
  assert (0 <= K * K') by (apply ProofMinimize.Qcmul_nonneg; assumption). split; [qc_lra|]. split.
  - intros u Hu. rewrite Qcabs_mul. pose proof (Qcmul_le2 _ _ _ _ (Qcabs_nonneg (f u)) (B u Hu) (Qcabs_nonneg (g u)) (B' u Hu)). qc_lra.
  - intros u v Hu Hv. replace (f u * g u - f v * g v) with ((f u) * (g u - g v) + (g v) * (f u - f v)) by ring.
    eapply Qcle_trans; [apply Qcabs_triangle|]. rewrite !Qcabs_mul. replace ((K * K' + K * K') * Qcabs (u - v)) with (K * (K' * Qcabs (u - v)) + K' * (K * Qcabs (u - v))) by ring.
    pose proof (Qcmul_le2 _ _ _ _ (Qcabs_nonneg (f u)) (B u Hu) (Qcabs_nonneg (g u - g v)) (C' u v Hu Hv)).
    pose proof (Qcmul_le2 _ _ _ _ (Qcabs_nonneg (g v)) (B' v Hv) (Qcabs_nonneg (f u - f v)) (C u v Hu Hv)). qc_lra.
Qed.
Lemma lip_qsum R (f : nat -> Qc -> Qc) n : (forall i, (i < n)%nat -> lip R (f i)) -> lip R (fun u => qsum (fun i => f i u) n).
Proof. induction n; intros H; cbn [qsum]; [apply lip_const|]. apply lip_add; [apply IHn; intros; apply H; lia|apply H; lia]. Qed.

Lemma bsp_lip R U s p : forall i, lip R (bsp U s p i).
Proof.
  induction p as [|p IH]; intros i; [apply (lip_ext R (fun _ => if Nat.eqb i s then 1 else 0)); [reflexivity|apply lip_const]|].
  refine (lip_ext R _ _ _ (lip_add R _ _ (lip_mul R _ _ (lip_affine R (/ (U (i + S p)%nat - U i)) (- U i * / (U (i + S p)%nat - U i))) (IH i))
    (lip_mul R _ _ (lip_affine R (- / (U (i + S p + 1)%nat - U (i + 1)%nat)) (U (i + S p + 1)%nat * / (U (i + S p + 1)%nat - U (i + 1)%nat))) (IH (i + 1)%nat)))).
  intros u. cbn [bsp]. unfold Qcdiv. ring.
Qed.
Lemma dsum_lip R U n p s f : lip R (dsum U n p 0 s f).
Proof.
  apply (lip_qsum R (fun i u => bspd (knot U) s 0 p i u * f i)). intros i _. cbn [bspd]. apply lip_mul; [apply bsp_lip|apply lip_const].
Qed.

(** one constant for the spans 0, ..., m *)
Lemma lip_all R (f : nat -> Qc -> Qc) m : (forall s, lip R (f s)) ->
  exists K, 0 <= K /\ forall s, (s <= m)%nat -> (forall u, Qcabs u <= R -> Qcabs (f s u) <= K) /\ forall u v, Qcabs u <= R -> Qcabs v <= R -> Qcabs (f s u - f s v) <= K * Qcabs (u - v).
Proof.
  intros H. induction m as [|m (K & K0 & HK)].
  - destruct (H 0%nat) as (K & A & B & C). exists K. split; [assumption|]. intros s Hs. replace s with 0%nat by lia. auto.
  - destruct (H (S m)) as (K' & A & B & C). exists (K + K'). split; [qc_lra|]. intros s Hs. destruct (Nat.eq_dec s (S m)) as [->|N].
    + split; [intros u Hu; specialize (B u Hu); qc_lra|]. intros u v Hu Hv. specialize (C u v Hu Hv). pose proof (Qcabs_nonneg (u - v)).
      assert (0 <= K * Qcabs (u - v)) by (apply ProofMinimize.Qcmul_nonneg; assumption). replace ((K + K') * Qcabs (u - v)) with (K * Qcabs (u - v) + K' * Qcabs (u - v)) by ring. qc_lra.
    + destruct (HK s ltac:(lia)) as [B' C']. split; [intros u Hu; specialize (B' u Hu); qc_lra|]. intros u v Hu Hv. specialize (C' u v Hu Hv). pose proof (Qcabs_nonneg (u - v)).
      assert (0 <= K' * Qcabs (u - v)) by (apply ProofMinimize.Qcmul_nonneg; assumption). replace ((K + K') * Qcabs (u - v)) with (K * Qcabs (u - v) + K' * Qcabs (u - v)) by ring. qc_lra.
Qed.

(** from one span to a later one *)
Lemma chain U n p f R K : valid_knots n p U -> inner_multiplicity n p U p ->
  (forall s, (s <= n)%nat -> forall u v, Qcabs u <= R -> Qcabs v <= R -> Qcabs (dsum U n p 0 s f u - dsum U n p 0 s f v) <= K * Qcabs (u - v)) ->
  forall g s s' t t', (s' - s <= g)%nat -> (p <= s <= s')%nat -> (s' <= n)%nat -> span_ok (knot U) s t -> span_ok (knot U) s' t' -> t <= t' -> Qcabs t <= R -> Qcabs t' <= R ->
  Qcabs (dsum U n p 0 s f t - dsum U n p 0 s' f t') <= K * (t' - t).
Proof.
  intros V IM HK. pose proof V as (Hpn & HL & So & N). pose proof (sorted_mono _ So) as M.
  induction g as [|g IH]; intros s s' t t' Hg Hs Hs' I I' Htt Rt Rt'.
  - replace s' with s by lia. specialize (HK s ltac:(lia) t t' Rt Rt'). destruct (Qcabs_cases (t - t')) as [[H E]|[H E]]; rewrite E in HK.
    + assert (t = t') by (apply Qcle_antisym; qc_lra). subst t'. exact HK.
    + replace (t' - t) with (- (t - t')) by ring. exact HK.
  - destruct (Nat.eq_dec s s') as [->|Ns]; [apply IH; try assumption; lia|].
    destruct I as (A & B & C), I' as (A' & B' & C').
    assert (knot U (S s) <= knot U s') as L by (apply M; lia).
    set (t1 := knot U s') in *.
    assert (knot U s < t1) as L1 by qc_lra.
    destruct (span_before (knot U) s' t1 M eq_refl s ltac:(lia) L1) as (s0 & Hs0 & X1 & X2 & X3).
    assert (Qcabs t1 <= R) as Rt1. { apply Qcabs_le in Rt, Rt'. apply Qcabs_le. destruct Rt, Rt'. split; qc_lra. }
    assert (span_ok (knot U) s0 t1) as O0 by (split; [qc_lra|]; split; [rewrite X2; apply Qcle_refl|rewrite X2; assumption]).
    assert (span_ok (knot U) s' t1) as O1 by (split; [apply Qcle_refl|]; split; [apply Qclt_le_weak; assumption|assumption]).
    assert (dsum U n p 0 s0 f t1 = dsum U n p 0 s' f t1) as J.
    { unfold dsum. apply qsum_ext. intros i _. f_equal. apply (bspd_join (knot U) s0 s' t1 M O0 O1 ltac:(lia) X3 0 p).
      assert (s' - s0 <= multiplicity U t1)%nat. { apply (mult_range U t1 (S s0)). intros j Hj. split; [lia|]. rewrite <- knot_nth by lia. apply X3. lia. }
      assert (multiplicity U t1 <= p)%nat; [|lia]. apply IM.
      - assert (knot U p <= knot U s) by (apply M; lia). qc_lra.
      - assert (knot U (S s') <= knot U (n + 1)) by (apply M; lia). eapply Qclt_le_trans; [exact C'|assumption]. }
    assert (t <= t1) as T1 by qc_lra.
    pose proof (IH s s0 t t1 ltac:(lia) ltac:(lia) ltac:(lia) (conj A (conj B C)) O0 T1 Rt Rt1) as P1.
    pose proof (HK s' ltac:(lia) t1 t' Rt1 Rt') as P2. rewrite <- J in P2.
    replace (dsum U n p 0 s f t - dsum U n p 0 s' f t') with ((dsum U n p 0 s f t - dsum U n p 0 s0 f t1) + (dsum U n p 0 s0 f t1 - dsum U n p 0 s' f t')) by ring.
    eapply Qcle_trans; [apply Qcabs_triangle|]. replace (K * (t' - t)) with (K * (t1 - t) + K * (t' - t1)) by ring.
    assert (Qcabs (t1 - t') = t' - t1) as E. { destruct (Qcabs_cases (t1 - t')) as [[H E]|[H E]]; rewrite E; [apply Qcle_antisym; qc_lra|ring]. }
    rewrite E in P2. qc_lra.
Qed.

(** the sums of a curve over its whole domain: bounded, and Lipschitz *)
Lemma phi_lip U n p f : valid_knots n p U -> inner_multiplicity n p U p ->
  exists K, 0 <= K /\ (forall t, in_domain n p U t -> Qcabs (phi U n p 0 f t) <= K) /\
    forall t t', in_domain n p U t -> in_domain n p U t' -> Qcabs (phi U n p 0 f t - phi U n p 0 f t') <= K * Qcabs (t - t').
Proof.
  intros V IM. set (R := Qcabs (knot U p) + Qcabs (knot U (n + 1))).
  assert (forall t, in_domain n p U t -> Qcabs t <= R) as HR.
  { intros t [A B]. apply Qcabs_le. unfold R. destruct (Qcabs_cases (knot U p)) as [[? ->]|[? ->]], (Qcabs_cases (knot U (n + 1))) as [[? ->]|[? ->]]; split; qc_lra. }
  destruct (lip_all R (fun s => dsum U n p 0 s f) n (fun s => dsum_lip R U n p s f)) as (K & K0 & HK).
  exists K. split; [assumption|]. split.
  - intros t D. destruct (sp_ok _ _ _ _ V D) as (_ & Hs & I). rewrite (phi_span U n p 0 f t _ V D I). destruct I as (A & _). exact (proj1 (HK _ A) t (HR t D)).
  - assert (forall t t', in_domain n p U t -> in_domain n p U t' -> t <= t' -> Qcabs (phi U n p 0 f t - phi U n p 0 f t') <= K * (t' - t)) as L.
    { intros t t' D D' H. destruct (sp_ok _ _ _ _ V D) as (_ & Hs & I). destruct (sp_ok _ _ _ _ V D') as (_ & Hs' & I').
      rewrite (phi_span U n p 0 f t _ V D I), (phi_span U n p 0 f t' _ V D' I'). pose proof I as (A & B & C). pose proof I' as (A' & B' & C').
      pose proof V as (Hpn & HL & So & N). pose proof (sorted_mono _ So) as M.
      apply (chain U n p f R K V IM (fun s Hs => proj2 (HK s Hs)) n); try assumption; try lia; try (apply HR; assumption).
      - split; [assumption|]. set (s := sp n p U t) in *. set (s' := sp n p U t') in *. clearbody s s'. destruct (Nat.le_gt_cases s s') as [|G]; [assumption|exfalso].
        destruct C' as [C'|[-> _]]; [|lia]. assert (knot U (S s') <= knot U s) by (apply M; lia). qc_lra.
      - eapply valid_span_ok; eassumption.
      - eapply valid_span_ok; eassumption. }
    intros t t' D D'. destruct (Qcabs_cases (t - t')) as [[H E]|[H E]]; rewrite E.
    + rewrite <- Qcabs_opp. replace (- (phi U n p 0 f t - phi U n p 0 f t')) with (phi U n p 0 f t' - phi U n p 0 f t) by ring. apply L; try assumption. qc_lra.
    + replace (- (t - t')) with (t' - t) by ring. apply L; try assumption. qc_lra.
Qed.

(** quotients *)
Lemma inv_anti (x y : Qc) : 0 < x -> x <= y -> / y <= / x.
Proof.
  intros Px L. assert (0 < y) as Py by (eapply Qclt_le_trans; eassumption).
  assert (x <> 0) as Nx by (intros E; rewrite E in Px; discriminate Px). assert (y <> 0) as Ny by (intros E; rewrite E in Py; discriminate Py).
  pose proof (Qcinv_pos _ Px) as Ix. pose proof (Qcinv_pos _ Py) as Iy.
  replace (/ y) with ((/ x * / y) * x) by (field; auto). replace (/ x) with ((/ x * / y) * y) at 2 by (field; auto).
  apply Qcmul_le_l; [|assumption]. apply ProofMinimize.Qcmul_nonneg; apply Qclt_le_weak; assumption.
Qed.
Lemma quotient_lip (N W : Qc -> Qc) (dom : Qc -> Prop) w KN KW : 0 < w -> 0 <= KN -> 0 <= KW ->
  (forall t, dom t -> w <= W t) -> (forall t, dom t -> Qcabs (N t) <= KN) -> (forall t, dom t -> Qcabs (W t) <= KW) ->
  (forall t t', dom t -> dom t' -> Qcabs (N t - N t') <= KN * Qcabs (t - t')) -> (forall t t', dom t -> dom t' -> Qcabs (W t - W t') <= KW * Qcabs (t - t')) ->
  forall t t', dom t -> dom t' -> Qcabs (N t / W t - N t' / W t') <= (KN * KW + KN * KW) / (w * w) * Qcabs (t - t').
Proof.
  intros w0 PN PW Lw BN BW LN LW t t' D D'. set (h := Qcabs (t - t')). pose proof (Qcabs_nonneg (t - t')) as H0. fold h in H0.
  pose proof (Lw t D) as L1. pose proof (Lw t' D') as L2.
  assert (W t <> 0) as N1 by (intros E; rewrite E in L1; exact (Qcle_not_lt _ _ L1 w0)). assert (W t' <> 0) as N2 by (intros E; rewrite E in L2; exact (Qcle_not_lt _ _ L2 w0)).
  replace (N t / W t - N t' / W t') with ((N t * (W t' - W t) + W t * (N t - N t')) * / (W t * W t')) by (field; auto).
  rewrite Qcabs_mul. unfold Qcdiv. rewrite <- Qcmult_assoc, (Qcmult_comm (/ (w * w))), Qcmult_assoc.
  assert (0 < w * w) as Pww by (apply Qcmul_pos; assumption). assert (w * w <= W t * W t') as Lww by (apply Qcmul_le2; try assumption; qc_lra).
  assert (0 < W t * W t') as PW2 by qc_lra.
  apply Qcmul_le2; try apply Qcabs_nonneg.
  - eapply Qcle_trans; [apply Qcabs_triangle|]. rewrite !Qcabs_mul. replace ((KN * KW + KN * KW) * h) with (KN * (KW * h) + KW * (KN * h)) by ring.
    assert (Qcabs (N t) * Qcabs (W t' - W t) <= KN * (KW * h)) as Q1.
    { apply Qcmul_le2; try apply Qcabs_nonneg; [apply BN; assumption|]. rewrite <- Qcabs_opp. replace (- (W t' - W t)) with (W t - W t') by ring. apply LW; assumption. }
    assert (Qcabs (W t) * Qcabs (N t - N t') <= KW * (KN * h)) as Q2 by (apply Qcmul_le2; try apply Qcabs_nonneg; [apply BW|apply LN]; assumption). qc_lra.
  - pose proof (Qcinv_pos _ PW2) as P1. pose proof (Qcinv_pos _ Pww) as P2.
    assert (Qcabs (/ (W t * W t')) = / (W t * W t')) as ->. { destruct (Qcabs_cases (/ (W t * W t'))) as [[H E]|[H E]]; [exact E|exfalso; qc_lra]. }
    apply inv_anti; assumption.
Qed.

Lemma continuous_top c n : good_curve c n -> positive_weights (nc_cps c) -> inner_multiplicity n (nc_degree c) (nc_knots c) (nc_degree c) ->
  lipschitz (evaluate c) (in_curve c n).
Proof.
  intros (HP & V & H8) W IM. set (U := nc_knots c) in *. set (p := nc_degree c) in *. set (P := nc_cps c) in *.
  destruct (min_weight P W) as (w & w0 & Hw).
  destruct (phi_lip U n p (fun i => ww (nth i P d4)) V IM) as (KW & PW & BW & LW).
  assert (forall cf : vec4 -> Qc, exists K, forall t t', in_domain n p U t -> in_domain n p U t' ->
    Qcabs (weighted_at cf U n p P t / weight_at U n p P t - weighted_at cf U n p P t' / weight_at U n p P t') <= K * Qcabs (t - t')) as K.
  { intros cf. destruct (phi_lip U n p (fun i => ww (nth i P d4) * cf (nth i P d4)) V IM) as (KN & PN & BN & LN).
    assert (forall t, in_domain n p U t -> weight_at U n p P t = phi U n p 0 (fun i => ww (nth i P d4)) t) as EW.
    { intros t D. destruct (sp_ok _ _ _ _ V D) as (_ & _ & I). unfold weight_at, phi, dsum. apply qsum_ext. intros i _. rewrite (basis_at_bsp _ _ _ _ _ i V D I). reflexivity. }
    assert (forall t, in_domain n p U t -> weighted_at cf U n p P t = phi U n p 0 (fun i => ww (nth i P d4) * cf (nth i P d4)) t) as EN.
    { intros t D. destruct (sp_ok _ _ _ _ V D) as (_ & _ & I). unfold weighted_at, phi, dsum. apply qsum_ext. intros i _. rewrite (basis_at_bsp _ _ _ _ _ i V D I). fold d4. cbn [bspd]. ring. }
    exists ((KN * KW + KN * KW) / (w * w)). intros t t' D D'. rewrite !EW, !EN by assumption.
    apply (quotient_lip _ _ (in_domain n p U)); try assumption. intros t0 D0. rewrite <- EW by assumption. apply weight_lower; assumption. }
  destruct (K wx) as (Kx & Hx). destruct (K wy) as (Ky & Hy). destruct (K wz) as (Kz & Hz).
  exists (Qcabs Kx + Qcabs Ky + Qcabs Kz). intros t t' D D'. exists (rational_point U n p P t), (rational_point U n p P t').
  split; [apply evaluate_positive; assumption|]. split; [apply evaluate_positive; assumption|].
  specialize (Hx t t' D D'). specialize (Hy t t' D D'). specialize (Hz t t' D D').
  set (h := Qcabs (t - t')) in *. pose proof (Qcabs_nonneg (t - t')) as H0. fold h in H0. clearbody h.
  pose proof (Qcabs_nonneg Kx). pose proof (Qcabs_nonneg Ky). pose proof (Qcabs_nonneg Kz).
  assert (forall a b, a <= b -> a * h <= b * h) as Mh. { intros a b L. rewrite (Qcmult_comm a), (Qcmult_comm b). apply Qcmul_le_l; assumption. }
  assert (forall a, a <= Qcabs a) as Ab. { intros a. destruct (Qcabs_cases a) as [[? ->]|[? ->]]; qc_lra. }
  pose proof (Ab Kx). pose proof (Ab Ky). pose proof (Ab Kz).
  unfold within3, rational_point. cbn [vx vy vz]. repeat split; (eapply Qcle_trans; [eassumption|]; apply Mh; qc_lra).
Qed.
