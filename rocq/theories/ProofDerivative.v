(** The derivative of a polynomial curve, span by span. *)
From Coq Require Import List ZArith QArith Qcanon Lia Bool.
From Verif Require Import Base BaseFacts ModelVec ModelAabb ModelNurbs ModelDerivative SpecAabb SpecNurbs SpecCurve SpecDerivative LoopFacts
  ProofBspline ProofNurbs ProofInsertKnot ProofCurve ProofMinimize ProofInsertCurve ProofDecompose ProofSmooth ProofDerBasis.
Import ListNotations.
Open Scope Qc_scope.

(** ** scalar functions given by one polynomial per span *)
Definition slope (f : Qc -> Qc) (dom : Qc -> Prop) (t d : Qc) : Prop :=
  forall eps, 0 < eps -> exists delta, 0 < delta /\
    forall t', dom t' -> Qcabs (t' - t) <= delta -> Qcabs (f t' - (f t + (t' - t) * d)) <= eps * Qcabs (t' - t).

Lemma Qcmin_pos a b : 0 < a -> 0 < b -> exists d, 0 < d /\ d <= a /\ d <= b.
Proof. intros A B. destruct (Qclt_le_dec b a) as [H|H]; [exists b|exists a]; repeat split; try assumption; qc_lra. Qed.

Lemma smooth_slope F G f (dom : Qc -> Prop) t : smooth F G -> f t = F t -> (exists d0, 0 < d0 /\ forall t', dom t' -> Qcabs (t' - t) <= d0 -> f t' = F t') -> slope f dom t (G t).
Proof.
  intros S E0 (d0 & D0 & E) eps He. destruct (S t) as (K & K0 & HK).
  assert (0 < eps / (K + 1)) as Hq. { unfold Qcdiv. apply Qcmul_pos; [assumption|]. apply Qcinv_pos. qc_lra. }
  destruct (Qcmin_pos d0 1 D0 ltac:(reflexivity)) as (d1 & P1 & L1 & L1'). destruct (Qcmin_pos d1 _ P1 Hq) as (d & P & L2 & L3).
  exists d. split; [assumption|]. intros t' Dt' Ht'. rewrite (E t' Dt') by qc_lra. rewrite E0.
  specialize (HK (t' - t) ltac:(qc_lra)). replace (t + (t' - t)) with t' in HK by ring.
  replace (F t' - (F t + (t' - t) * G t)) with (F t' - F t - (t' - t) * G t) by ring.
  eapply Qcle_trans; [exact HK|]. rewrite Qcsq_abs. set (h := Qcabs (t' - t)) in *. pose proof (Qcabs_nonneg (t' - t)) as H0. fold h in H0.
  replace (K * (h * h)) with (h * (K * h)) by ring. rewrite (Qcmult_comm eps h). apply Qcmul_le_l; [assumption|].
  apply Qcle_trans with ((K + 1) * (eps / (K + 1))); [apply Qcmul_le2; try assumption; qc_lra|].
  assert (0 < K + 1) as P1' by qc_lra. generalize dependent (K + 1). intros k1 _ _ P1'. replace (k1 * (eps / k1)) with eps; [apply Qcle_refl|]. field. intros ->. discriminate P1'.
Qed.

(** the limit among two sets of parameters *)
Lemma slope_union f (dom1 dom2 dom : Qc -> Prop) t d : slope f dom1 t d -> slope f dom2 t d -> (forall t', dom t' -> dom1 t' \/ dom2 t') -> slope f dom t d.
Proof.
  intros S1 S2 H eps He. destruct (S1 eps He) as (a & A & HA). destruct (S2 eps He) as (b & B & HB).
  destruct (Qcmin_pos a b A B) as (c & C & L1 & L2). exists c. split; [assumption|]. intros t' D L.
  destruct (H t' D); [apply HA|apply HB]; try assumption; qc_lra.
Qed.
Lemma slope_sub f (dom1 dom2 : Qc -> Prop) t d : (forall t', dom2 t' -> dom1 t') -> slope f dom1 t d -> slope f dom2 t d.
Proof. intros H S eps He. destruct (S eps He) as (a & A & HA). exists a. split; [assumption|]. intros t' D L. apply HA; auto. Qed.
Lemma slope_point f t d : slope f (fun t' => t' = t) t d.
Proof.
  intros eps He. exists 1. split; [reflexivity|]. intros t' -> _. replace (f t - (f t + (t - t) * d)) with 0 by ring. rewrite Qcabs_0.
  replace (t - t) with 0 by ring. rewrite Qcabs_0. replace (eps * 0) with 0 by ring. apply Qcle_refl.
Qed.

(** the span that holds [t] *)
Definition sp (n p : nat) (U : list Qc) (t : Qc) : nat := match find_span n p t U with Ok s => s | _ => 0%nat end.
Lemma sp_ok n p U t : valid_knots n p U -> in_domain n p U t -> find_span n p t U = Ok (sp n p U t) /\ (p <= sp n p U t)%nat /\ is_span (knot U) n (sp n p U t) t.
Proof. intros V D. unfold sp. destruct (find_span_spec n p U t V D) as (s & -> & H). auto. Qed.
Lemma sp_unique n p U t s : valid_knots n p U -> in_domain n p U t -> is_span (knot U) n s t -> sp n p U t = s.
Proof.
  intros V D I. destruct (sp_ok n p U t V D) as (_ & _ & I'). pose proof V as (_ & _ & So & N). apply sorted_mono in So.
  destruct I as (A & B & C), I' as (A' & B' & C'). set (s' := sp n p U t) in *. clearbody s'.
  destruct C as [C|[-> C]], C' as [C'|[-> C']].
  - apply (span_unique (knot U) s' s t); assumption.
  - exfalso. assert (knot U (S s) <= knot U (S n)) by (apply So; lia). qc_lra.
  - exfalso. assert (knot U (S s') <= knot U (S n)) by (apply So; lia). qc_lra.
  - reflexivity.
Qed.

(** the last span that ends at [t = U s] *)
Lemma span_before U s t : mono U -> U s = t -> forall q, (q <= s)%nat -> U q < t -> exists s0, (q <= s0 < s)%nat /\ U s0 < t /\ U (S s0) = t /\ forall j, (s0 < j <= s)%nat -> U j = t.
Proof.
  intros M E q Hq L. assert (forall k, (k <= s - q)%nat -> (forall j, (s - k < j <= s)%nat -> U j = t) -> exists s0, (q <= s0 < s)%nat /\ U s0 < t /\ U (S s0) = t /\ forall j, (s0 < j <= s)%nat -> U j = t) as K.
  2:{ apply (K 0%nat); [lia|]. intros j Hj. lia. }
  intros k Hk. remember (s - q - k)%nat as g eqn:G. revert k Hk G. induction g as [|g IH]; intros k Hk G Hj.
  - assert (k = s - q)%nat by lia. subst k. exists q. replace (s - (s - q))%nat with q in Hj by lia.
    assert (q <> s) by (intros ->; rewrite E in L; exact (Qcle_not_lt _ _ (Qcle_refl t) L)). repeat split; try lia; try assumption; apply Hj; lia.
  - destruct (Qc_eq_dec (U (s - k)%nat) t) as [Et|Nt].
    + apply (IH (S k)); [lia|lia|]. intros j Hj'. destruct (Nat.eq_dec j (s - k)) as [->|]; [assumption|]. apply Hj. lia.
    + exists (s - k)%nat. assert (k <> 0)%nat by (intros ->; apply Nt; rewrite Nat.sub_0_r; assumption).
      assert (U (s - k)%nat <= t) by (rewrite <- E; apply M; lia). repeat split; try lia; [destruct (Qclt_le_dec (U (s - k)%nat) t); [assumption|exfalso; apply Nt; apply Qcle_antisym; assumption]|apply Hj; lia|exact Hj].
Qed.

Lemma mult_range U t : forall a m, (forall j, (a <= j < a + m)%nat -> (j < length U)%nat /\ nth j U 0 = t) -> (m <= multiplicity U t)%nat.
Proof.
  unfold multiplicity. induction U as [|x U IH]; intros a m H.
  - destruct m; [lia|]. destruct (H a ltac:(lia)) as [L _]. cbn in L. lia.
  - cbn [filter]. destruct a as [|a].
    + destruct m as [|m]; [lia|]. destruct (H 0%nat ltac:(lia)) as [_ E]. cbn in E. subst x.
      destruct (Qceqb_spec t t) as [_|N]; [|contradiction]. cbn [length]. specialize (IH 0%nat m). enough (m <= length (filter (Qceqb t) U))%nat by lia.
      apply IH. intros j Hj. destruct (H (S j) ltac:(lia)) as [L E]. cbn in L, E. split; [lia|exact E].
    + specialize (IH a m). assert (m <= length (filter (Qceqb t) U))%nat. { apply IH. intros j Hj. destruct (H (S j) ltac:(lia)) as [L E]. cbn in L, E. split; [lia|exact E]. }
      destruct (Qceqb t x); cbn [length]; lia.
Qed.

(** ** k-th derivative of a sum of basis functions *)
Definition dsum (U : list Qc) (n p k s : nat) (f : nat -> Qc) (u : Qc) : Qc := qsum (fun i => bspd (knot U) s k p i u * f i) (S n).
Definition phi (U : list Qc) (n p k : nat) (f : nat -> Qc) (t : Qc) : Qc := dsum U n p k (sp n p U t) f t.

Lemma dsum_smooth U n p k s f : mono (knot U) -> smooth (dsum U n p k s f) (dsum U n p (S k) s f).
Proof.
  intros M. unfold dsum. apply (smooth_qsum (fun i u => bspd (knot U) s k p i u * f i) (fun i u => bspd (knot U) s (S k) p i u * f i)). intros i _.
  refine (smooth_ext _ _ _ _ _ _ (smooth_scale (f i) _ _ (bspd_smooth (knot U) s M k p i))); intros u; cbv beta; ring.
Qed.

Lemma phi_span U n p k f t s : valid_knots n p U -> in_domain n p U t -> is_span (knot U) n s t -> phi U n p k f t = dsum U n p k s f t.
Proof. intros V D I. unfold phi. rewrite (sp_unique n p U t s V D I). reflexivity. Qed.

Lemma phi_right U n p k f t : valid_knots n p U -> in_domain n p U t ->
  slope (phi U n p k f) (fun t' => in_domain n p U t' /\ t <= t') t (phi U n p (S k) f t).
Proof.
  intros V D. destruct (sp_ok n p U t V D) as (_ & Hs & I). pose proof V as (_ & _ & So & N). apply sorted_mono in So.
  rewrite (phi_span U n p (S k) f t _ V D I). pose proof I as (A & B & C). destruct C as [C|[E C]].
  - apply (smooth_slope (dsum U n p k (sp n p U t) f)); [apply dsum_smooth; assumption|reflexivity|].
    exists ((knot U (S (sp n p U t)) - t) / (1 + 1)). set (s := sp n p U t) in *. clearbody s.
    assert (0 < (knot U (S s) - t) / (1 + 1)) as P. { unfold Qcdiv. apply Qcmul_pos; [qc_lra|reflexivity]. }
    split; [assumption|]. intros t' [D' L] H. apply phi_span; [assumption|assumption|]. split; [assumption|]. split; [qc_lra|]. left.
    apply Qcabs_le in H. assert ((knot U (S s) - t) / (1 + 1) = knot U (S s) - t - (knot U (S s) - t) / (1 + 1)) as E by (field; discriminate).
    destruct H as [_ H]. set (h := (knot U (S s) - t) / (1 + 1)) in *. clearbody h.
    assert (h + h <= knot U (S s) - t) by (rewrite E at 1; replace (knot U (S s) - t - h + h) with (knot U (S s) - t) by ring; apply Qcle_refl). qc_lra.
  - apply (slope_sub _ (fun t' => t' = t)); [|apply slope_point]. intros t' [[_ D'] L]. rewrite Nat.add_1_r in D'. apply Qcle_antisym; [rewrite C; assumption|assumption].
Qed.

Lemma phi_left U n p k f t : valid_knots n p U -> in_domain n p U t ->
  t <= knot U p \/ knot U (n + 1) <= t \/ (multiplicity U t + k + 1 <= p)%nat ->
  slope (phi U n p k f) (fun t' => in_domain n p U t' /\ t' <= t) t (phi U n p (S k) f t).
Proof.
  intros V D H. destruct (sp_ok n p U t V D) as (_ & Hs & I). pose proof V as (Hpn & HL & So & N). apply sorted_mono in So.
  destruct (Qclt_le_dec (knot U p) t) as [Hst|Hst].
  2:{ apply (slope_sub _ (fun t' => t' = t)); [|apply slope_point]. intros t' [[D' _] L]. apply Qcle_antisym; qc_lra. }
  assert (forall s0, (s0 <= n)%nat -> knot U s0 < t -> t <= knot U (S s0) -> dsum U n p k s0 f t = phi U n p k f t -> dsum U n p (S k) s0 f t = phi U n p (S k) f t ->
    slope (phi U n p k f) (fun t' => in_domain n p U t' /\ t' <= t) t (phi U n p (S k) f t)) as K.
  { intros s0 Hn L1 L2 E1 E2. rewrite <- E2. apply (smooth_slope (dsum U n p k s0 f)); [apply dsum_smooth; assumption|symmetry; exact E1|].
    exists ((t - knot U s0) / (1 + 1)). assert (0 < (t - knot U s0) / (1 + 1)) as P. { unfold Qcdiv. apply Qcmul_pos; [qc_lra|reflexivity]. }
    split; [assumption|]. intros t' [D' L] HA.
    destruct (Qc_eq_dec t' t) as [->|NE]; [symmetry; exact E1|].
    assert (t' < t) as L' by (destruct (Qclt_le_dec t' t); [assumption|exfalso; apply NE; apply Qcle_antisym; assumption]).
    apply phi_span; [assumption|assumption|]. split; [assumption|].
    apply Qcabs_le in HA. destruct HA as [HA _].
    assert ((t - knot U s0) / (1 + 1) = t - knot U s0 - (t - knot U s0) / (1 + 1)) as E by (field; discriminate).
    set (h := (t - knot U s0) / (1 + 1)) in *. clearbody h.
    assert (h + h <= t - knot U s0) by (rewrite E at 1; replace (t - knot U s0 - h + h) with (t - knot U s0) by ring; apply Qcle_refl). split; [qc_lra|left; qc_lra]. }
  pose proof (valid_span_ok _ _ _ _ _ V I) as SO. pose proof I as (A & B & C).
  destruct (Qclt_le_dec (knot U (sp n p U t)) t) as [Hin|Hat].
  - apply (K (sp n p U t)); [assumption|assumption| |reflexivity|reflexivity]. destruct C as [C|[-> C]]; [qc_lra|rewrite <- C; apply Qcle_refl].
  - assert (knot U (sp n p U t) = t) as Et by (apply Qcle_antisym; assumption).
    assert (t < knot U (n + 1)) as Hend. { destruct C as [C|[E C]]; [|exfalso; rewrite E in Et; rewrite C in Et; rewrite Nat.add_1_r in N; rewrite Et in N; exact (Qcle_not_lt _ _ (Qcle_refl _) N)].
      assert (knot U (S (sp n p U t)) <= knot U (n + 1)) by (apply So; lia). qc_lra. }
    destruct H as [H|[H|H]]; [exfalso; qc_lra|exfalso; qc_lra|].
    destruct (span_before (knot U) (sp n p U t) t So Et p Hs Hst) as (s0 & Hs0 & L0 & E0 & Ej).
    assert (sp n p U t - s0 <= multiplicity U t)%nat as Hm.
    { apply (mult_range U t (S s0)). intros j Hj. split; [lia|]. rewrite <- knot_nth by lia. apply Ej. lia. }
    assert (span_ok (knot U) s0 t) as SO0. { split; [qc_lra|]. split; [rewrite E0; apply Qcle_refl|rewrite E0; assumption]. }
    apply (K s0); [lia|assumption|rewrite E0; apply Qcle_refl| |]; unfold phi, dsum; apply qsum_ext; intros i _; f_equal; apply bspd_join; try assumption; lia.
Qed.

(** ** three coordinates at once *)
Lemma velocity_of f (dom : Qc -> Prop) t (X Y Z : Qc -> Qc) dx dy dz : dom t -> (forall t', dom t' -> f t' = Ok (V3 (X t') (Y t') (Z t'))) ->
  slope X dom t dx -> slope Y dom t dy -> slope Z dom t dz -> has_velocity f dom t (V3 dx dy dz).
Proof.
  intros Dt F SX SY SZ. exists (V3 (X t) (Y t) (Z t)). split; [apply F; assumption|]. intros eps He.
  destruct (SX eps He) as (a & A & HA). destruct (SY eps He) as (b & B & HB). destruct (SZ eps He) as (c & C & HC).
  destruct (Qcmin_pos a b A B) as (d1 & D1 & L1 & L2). destruct (Qcmin_pos d1 c D1 C) as (d & D & L3 & L4).
  exists d. split; [assumption|]. intros t' Dt' L. exists (V3 (X t') (Y t') (Z t')). split; [apply F; assumption|].
  repeat split; unfold ahead; cbn [vx vy vz]; [apply HA|apply HB|apply HC]; try assumption; qc_lra.
Qed.

(** ** the curve *)
Definition coord (c : vec4 -> Qc) (P : list vec4) (i : nat) : Qc := c (nth i P d4).
Definition point_k (c : ncurve) (n k : nat) (t : Qc) : vec3 :=
  V3 (phi (nc_knots c) n (nc_degree c) k (coord wx (nc_cps c)) t) (phi (nc_knots c) n (nc_degree c) k (coord wy (nc_cps c)) t)
     (phi (nc_knots c) n (nc_degree c) k (coord wz (nc_cps c)) t).

Lemma evaluate_phi c n t : good_curve c n -> unit_weights (nc_cps c) -> in_curve c n t -> evaluate c t = Ok (point_k c n 0 t).
Proof.
  intros (HP & V & H8) W D. rewrite (evaluate_positive c n t HP V H8 D (unit_positive _ W)). f_equal. rewrite unit_rational by assumption.
  destruct (sp_ok _ _ _ _ V D) as (_ & _ & I). unfold poly_point, point_k, phi, dsum, coord.
  f_equal; apply qsum_ext; intros i _; rewrite (basis_at_bsp _ _ _ _ _ i V D I); reflexivity.
Qed.

Definition in_curve_from (c : ncurve) (n : nat) (t t' : Qc) : Prop := in_curve c n t' /\ t <= t'.

Lemma velocity_k c n k t f : good_curve c n -> in_curve c n t -> (forall t', in_curve c n t' -> f t' = Ok (point_k c n k t')) ->
  has_velocity f (fun t' => in_curve c n t' /\ t <= t') t (point_k c n (S k) t) /\
  (t <= knot (nc_knots c) (nc_degree c) \/ knot (nc_knots c) (n + 1) <= t \/ (multiplicity (nc_knots c) t + k + 1 <= nc_degree c)%nat ->
   has_velocity f (in_curve c n) t (point_k c n (S k) t)).
Proof.
  intros (HP & V & H8) D F. split; [|intros H].
  - apply (velocity_of f (fun t' => in_curve c n t' /\ t <= t') t (fun t' => vx (point_k c n k t')) (fun t' => vy (point_k c n k t')) (fun t' => vz (point_k c n k t')));
      [split; [assumption|apply Qcle_refl]|intros t' [Dt' _]; rewrite F by assumption; reflexivity|apply phi_right; assumption..].
  - apply (velocity_of f (in_curve c n) t (fun t' => vx (point_k c n k t')) (fun t' => vy (point_k c n k t')) (fun t' => vz (point_k c n k t')));
      [assumption|intros t' Dt'; rewrite F by assumption; reflexivity|..];
      (eapply slope_union; [apply phi_right; eassumption|apply phi_left; eassumption|]; intros t' Dt'; destruct (Qclt_le_dec t' t) as [L|L]; [right|left]; (split; [exact Dt'|qc_lra])).
Qed.
