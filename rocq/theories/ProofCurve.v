(** Consequences for whole curves: hull, boxes, end points, insertion. *)
From Coq Require Import List ZArith QArith Qcanon Bool Lia Lqa Field.
From Verif Require Import Base BaseFacts LoopFacts ModelVec ModelAabb SpecAabb ProofAabb ModelNurbs SpecNurbs ProofBspline ProofInsertion ProofNurbs ProofInsertCurve ProofInsertKnot.
Import ListNotations.
Open Scope Qc_scope.

Lemma partition_all n p U u : valid_knots n p U -> in_domain n p U u -> qsum (basis_at U n p u) (S n) = 1.
Proof.
  intros V D. destruct (find_span_spec n p U u V D) as (s & _ & Hs & IS).
  pose proof (valid_span_ok _ _ _ _ _ V IS) as SO. pose proof IS as (Hsn & _).
  rewrite (qsum_ext _ (fun i => bsp (knot U) s p i u * 1)).
  2:{ intros i _. rewrite (basis_at_bsp n p U u s) by assumption. ring. }
  rewrite (bsp_sum_support (knot U) s p u (fun _ => 1)) by lia.
  rewrite (qsum_ext _ (fun r => bsp (knot U) s p (s - p + r) u)) by (intros; ring).
  apply bsp_partition; [apply sorted_mono; apply V|assumption|assumption].
Qed.

Lemma basis_at_nonneg n p U u i : valid_knots n p U -> in_domain n p U u -> 0 <= basis_at U n p u i.
Proof.
  intros V D. destruct (find_span_spec n p U u V D) as (s & _ & Hs & IS).
  rewrite (basis_at_bsp n p U u s) by assumption.
  apply bsp_nonneg; [apply sorted_mono; apply V|]. eapply valid_span_ok; eassumption.
Qed.

Lemma Qcmul_nonneg a b : 0 <= a -> 0 <= b -> 0 <= a * b.
Proof. intros. qc_nra. Qed.

Lemma nth_weight P i n : length P = S n -> (i < S n)%nat -> In (nth i P d4) P.
Proof. intros. apply nth_In. lia. Qed.

(** positive weights: the denominator is positive *)
Lemma weight_lower n p U P u (w : Qc) : valid_knots n p U -> in_domain n p U u -> length P = S n ->
  (forall q, In q P -> w <= ww q) -> w <= weight_at U n p P u.
Proof.
  intros V D HP HW. unfold weight_at. fold d4.
  assert (w = w * qsum (basis_at U n p u) (S n)) as E by (rewrite partition_all by assumption; ring).
  rewrite E at 1. rewrite <- qsum_scale. apply qsum_le. intros i Hi.
  pose proof (basis_at_nonneg n p U u i V D). pose proof (HW _ (nth_weight P i n HP Hi)).
  generalize dependent (basis_at U n p u i). intros. qc_nra.
Qed.

Lemma min_weight P : positive_weights P -> exists w, 0 < w /\ forall q, In q P -> w <= ww q.
Proof.
  intros H. induction P as [|a P IH].
  - exists 1. split; [reflexivity|]. intros q [].
  - destruct IH as (w & W & L). { intros q Hq. apply H. right; assumption. }
    assert (0 < ww a) by (apply H; left; reflexivity).
    exists (Qcmin w (ww a)). split.
    + unfold Qcmin. destruct (ww a <? w); assumption.
    + intros q [<-|Hq]; [apply Qcmin_le_r|]. pose proof (L q Hq). pose proof (Qcmin_le_l w (ww a)). qc_lra.
Qed.

Lemma weight_pos n p U P u : valid_knots n p U -> in_domain n p U u -> length P = S n -> positive_weights P ->
  0 < weight_at U n p P u.
Proof.
  intros V D HP HW. destruct (min_weight P HW) as (w & W & L).
  pose proof (weight_lower n p U P u w V D HP L). qc_lra.
Qed.

Lemma unit_positive P : unit_weights P -> positive_weights P.
Proof. intros H q Hq. rewrite (H q Hq). reflexivity. Qed.

Lemma unit_weight_at n p U P u : valid_knots n p U -> in_domain n p U u -> length P = S n -> unit_weights P ->
  weight_at U n p P u = 1.
Proof.
  intros V D HP HW. unfold weight_at. fold d4.
  rewrite <- (partition_all n p U u V D). apply qsum_ext. intros i Hi.
  rewrite (HW _ (nth_weight P i n HP Hi)). ring.
Qed.

(** polynomial point: plain sums *)
Definition poly_point (U : list Qc) (n p : nat) (P : list vec4) (u : Qc) : vec3 :=
  let f c := qsum (fun i => basis_at U n p u i * c (nth i P d4)) (S n) in
  V3 (f wx) (f wy) (f wz).

Lemma Qcdiv_1 (a : Qc) : a / 1 = a.
Proof. field. discriminate. Qed.

Lemma unit_rational n p U P u : valid_knots n p U -> in_domain n p U u -> length P = S n -> unit_weights P ->
  rational_point U n p P u = poly_point U n p P u.
Proof.
  intros V D HP HW. unfold rational_point, poly_point. rewrite unit_weight_at by assumption.
  rewrite !Qcdiv_1. unfold weighted_at. fold d4.
  assert (forall c : vec4 -> Qc, qsum (fun i => basis_at U n p u i * ww (nth i P d4) * c (nth i P d4)) (S n) =
     qsum (fun i => basis_at U n p u i * c (nth i P d4)) (S n)) as K.
  { intros c. apply qsum_ext. intros i Hi. rewrite (HW _ (nth_weight P i n HP Hi)). ring. }
  rewrite !K. reflexivity.
Qed.

Lemma evaluate_positive c n u : length (nc_cps c) = S n -> valid_knots n (nc_degree c) (nc_knots c) -> (nc_degree c <= 8)%nat ->
  in_domain n (nc_degree c) (nc_knots c) u -> positive_weights (nc_cps c) ->
  evaluate c u = Ok (rational_point (nc_knots c) n (nc_degree c) (nc_cps c) u).
Proof.
  intros HP V H8 D W. unfold evaluate. rewrite HP. apply curve_point_spec; try assumption.
  pose proof (weight_pos n _ _ _ u V D HP W) as L. intros E. rewrite E in L. discriminate L.
Qed.

(** ** Hull *)
Lemma hull_run n p U P u : valid_knots n p U -> in_domain n p U u -> length P = S n -> positive_weights P ->
  in_hull_of_run p P (rational_point U n p P u).
Proof.
  intros V D HP HW. destruct (find_span_spec n p U u V D) as (s & _ & Hs & IS).
  pose proof IS as (Hsn & _). set (w := weight_at U n p P u).
  assert (0 < w) as Wp by (apply weight_pos; assumption).
  assert (w <> 0) as Wn by (intros E; rewrite E in Wp; discriminate).
  exists (s - p)%nat, (fun j => basis_at U n p u (s - p + j) * ww (nth (s - p + j) P d4) / w).
  assert (forall f : nat -> Qc, qsum (fun i => basis_at U n p u i * f i) (S n) =
            qsum (fun j => basis_at U n p u (s - p + j) * f (s - p + j)%nat) (S p)) as K.
  { intros f. rewrite (qsum_ext _ (fun i => bsp (knot U) s p i u * f i)).
    2:{ intros i _. rewrite (basis_at_bsp n p U u s) by assumption. reflexivity. }
    rewrite (bsp_sum_support (knot U) s p u f) by lia. apply qsum_ext. intros j _.
    rewrite (basis_at_bsp n p U u s) by assumption. reflexivity. }
  split; [lia|]. split.
  { intros j Hj. apply Qcdiv_nonneg; [|assumption]. apply Qcmul_nonneg; [apply basis_at_nonneg; assumption|].
    assert (0 < ww (nth (s - p + j) P d4)) by (apply HW; apply nth_In; lia). qc_lra. }
  split.
  { rewrite (qsum_ext _ (fun j => / w * (basis_at U n p u (s - p + j) * ww (nth (s - p + j) P d4)))).
    2:{ intros; unfold Qcdiv; ring. }
    rewrite qsum_scale. rewrite <- (K (fun i => ww (nth i P d4))).
    fold d4 in *. change (qsum (fun i => basis_at U n p u i * ww (nth i P d4)) (S n)) with w.
    field. assumption. }
  assert (forall c, weighted_at c U n p P u / w =
     qsum (fun j => basis_at U n p u (s - p + j) * ww (nth (s - p + j) P d4) / w * c (nth (s - p + j) P d4)) (S p)) as KC.
  { intros c. unfold weighted_at. fold d4.
    rewrite (qsum_ext _ (fun i => basis_at U n p u i * (ww (nth i P d4) * c (nth i P d4)))) by (intros; ring).
    rewrite (K (fun i => ww (nth i P d4) * c (nth i P d4))).
    unfold Qcdiv. rewrite Qcmult_comm. rewrite <- qsum_scale. apply qsum_ext. intros. ring. }
  unfold rational_point. fold w. cbn [vx vy vz]. rewrite <- !KC. auto.
Qed.

Lemma convex_bounds m (f : nat -> Qc) k a b : (forall j, (j < k)%nat -> 0 <= m j) -> qsum m k = 1 ->
  (forall j, (j < k)%nat -> a <= f j /\ f j <= b) ->
  a <= qsum (fun j => m j * f j) k /\ qsum (fun j => m j * f j) k <= b.
Proof.
  intros Hm H1 Hf.
  assert (a = qsum (fun j => a * m j) k) as Ea by (rewrite qsum_scale, H1; ring).
  assert (b = qsum (fun j => b * m j) k) as Eb by (rewrite qsum_scale, H1; ring).
  rewrite Ea at 1. rewrite Eb at 1. split; apply qsum_le; intros j Hj; pose proof (Hm j Hj); destruct (Hf j Hj); qc_nra.
Qed.

Lemma hull_box n p U P u a b : valid_knots n p U -> in_domain n p U u -> length P = S n -> positive_weights P ->
  (forall q, In q P -> inside (Box a b) (xyz q)) -> inside (Box a b) (rational_point U n p P u).
Proof.
  intros V D HP HW HB. destruct (hull_run n p U P u V D HP HW) as (s & m & Hs & Hm & H1 & X & Y & Z).
  intros ax. assert (forall j, (j < S p)%nat -> In (nth (s + j) P d4) P) as HI by (intros; apply nth_In; lia).
  destruct ax; cbn [coord bmin bmax]; [rewrite X|rewrite Y|rewrite Z];
  (apply convex_bounds; [intros; apply Hm; lia|assumption|]); intros j Hj; specialize (HB _ (HI j Hj)).
  - exact (HB AX). - exact (HB AY). - exact (HB AZ).
Qed.

(** ** the stored box, unit weights *)
Lemma to_vec3_unit q : ww q = 1 -> to_vec3 q = Ok (xyz q).
Proof. intros E. unfold to_vec3, xyz. rewrite E. rewrite !qdiv_ok by discriminate. cbn [bind]. rewrite !Qcdiv_1. reflexivity. Qed.
Lemma mapM_unit P : unit_weights P -> mapM to_vec3 P = Ok (map xyz P).
Proof.
  induction P as [|a P IH]; intros H; [reflexivity|]. cbn [mapM map].
  rewrite to_vec3_unit by (apply H; left; reflexivity). cbn [bind].
  rewrite IH by (intros q Hq; apply H; right; assumption). reflexivity.
Qed.

Lemma rebuild_unit c : unit_weights (nc_cps c) -> nc_cps c <> [] ->
  exists b, rebuildAABB c = Ok (nc_set_aabb c b) /\ (forall q, In q (nc_cps c) -> inside b (xyz q)) /\
    (forall b', (forall q, In q (nc_cps c) -> inside b' (xyz q)) -> subbox b b').
Proof.
  intros HW NE. unfold rebuildAABB. destruct (nc_cps c) as [|a P] eqn:E; [contradiction|].
  rewrite to_vec3_unit by (apply HW; left; reflexivity). cbn [bind].
  rewrite mapM_unit by assumption. cbn [bind].
  eexists. split; [reflexivity|]. cbn [map fold_left].
  assert (aabb_expand (Box (xyz a) (xyz a)) (xyz a) = Box (xyz a) (xyz a)) as ->.
  { apply box_ext; intros ax; rewrite ?expand_min, ?expand_max; cbn [bmin bmax]; unfold Qcmin, Qcmax;
    destruct (coord (xyz a) ax <? coord (xyz a) ax); reflexivity. }
  destruct (of_points_tight (map xyz (a :: P))) as (b & Eb & _ & H1 & H2); [discriminate|].
  cbn [map aabb_of_points] in Eb. injection Eb as <-.
  split.
  - intros q Hq. apply H1. change (xyz a :: map xyz P) with (map xyz (a :: P)). apply in_map. assumption.
  - intros b' Hb'. apply H2. intros x Hx. apply in_map_iff in Hx. destruct Hx as (q & <- & Hq). apply Hb'. assumption.
Qed.

(** ** end points *)
Lemma bsp_mult_left U s u : mono U -> span_ok U s u -> forall p, (p <= s)%nat ->
  (forall j, (s - p < j <= s)%nat -> U j = u) -> forall i, bsp U s p i u = if Nat.eqb i (s - p) then 1 else 0.
Proof.
  intros M (A & B & C) p. induction p; intros Hp HU i.
  - cbn [bsp]. replace (s - 0)%nat with s by lia. reflexivity.
  - cbn [bsp]. rewrite !IHp by (try lia; intros; apply HU; lia).
    destruct (Nat.eqb_spec i (s - p)) as [E|E].
    + destruct (Nat.eqb_spec (i + 1) (s - p)); [lia|]. destruct (Nat.eqb_spec i (s - S p)); [lia|].
      rewrite (HU i) by lia. unfold Qcdiv. ring.
    + destruct (Nat.eqb_spec (i + 1) (s - p)) as [E2|E2], (Nat.eqb_spec i (s - S p)); try lia.
      * replace (i + S p + 1)%nat with (S s) by lia. rewrite (HU (i + 1)%nat) by lia.
        assert (u = U s) as Eu by (symmetry; apply HU; lia).
        rewrite Qcmult_0_r. field. apply Qcsub_pos. rewrite Eu. assumption.
      * ring.
Qed.

Lemma bsp_mult_right U s u : mono U -> span_ok U s u -> forall p,
  (forall j, (s < j <= s + p)%nat -> U j = u) -> forall i, bsp U s p i u = if Nat.eqb i s then 1 else 0.
Proof.
  intros M (A & B & C) p. induction p; intros HU i.
  - reflexivity.
  - cbn [bsp]. rewrite !IHp by (intros; apply HU; lia).
    destruct (Nat.eqb_spec i s) as [E|E].
    + destruct (Nat.eqb_spec (i + 1) s); [lia|]. subst i. rewrite (HU (s + S p)%nat) by lia.
      assert (u = U (S s)) as Eu by (symmetry; apply HU; lia).
      rewrite Qcmult_0_r. field. apply Qcsub_pos. rewrite Eu. assumption.
    + destruct (Nat.eqb_spec (i + 1) s) as [E2|E2].
      * rewrite (HU (i + S p + 1)%nat) by lia. unfold Qcdiv. ring.
      * ring.
Qed.

Lemma qsum_delta (f : nat -> Qc) k n : (k < n)%nat -> qsum (fun i => (if Nat.eqb i k then 1 else 0) * f i) n = f k.
Proof.
  intros H. replace n with (k + (1 + (n - S k)))%nat by lia. rewrite !qsum_split.
  rewrite (qsum_zero _ k). 2:{ intros i Hi. destruct (Nat.eqb_spec i k); [lia|ring]. }
  rewrite (qsum_zero _ (n - S k)). 2:{ intros i Hi. destruct (Nat.eqb_spec (k + (1 + i)) k); [lia|ring]. }
  cbn [qsum]. rewrite Nat.add_0_r, Nat.eqb_refl. ring.
Qed.

Lemma rational_delta U n p P u k : (k < S n)%nat -> ww (nth k P d4) <> 0 ->
  (forall i, basis_at U n p u i = if Nat.eqb i k then 1 else 0) -> rational_point U n p P u = xyz (nth k P d4).
Proof.
  intros Hk HW HB. unfold rational_point.
  assert (weight_at U n p P u = ww (nth k P d4)) as ->.
  { unfold weight_at. fold d4. rewrite (qsum_ext _ (fun i => (if Nat.eqb i k then 1 else 0) * ww (nth i P d4))) by (intros; rewrite HB; reflexivity).
    apply (qsum_delta (fun i => ww (nth i P d4))). assumption. }
  assert (forall c, weighted_at c U n p P u = ww (nth k P d4) * c (nth k P d4)) as K.
  { intros c. unfold weighted_at. fold d4.
    rewrite (qsum_ext _ (fun i => (if Nat.eqb i k then 1 else 0) * (ww (nth i P d4) * c (nth i P d4)))) by (intros; rewrite HB; ring).
    apply (qsum_delta (fun i => ww (nth i P d4) * c (nth i P d4))). assumption. }
  rewrite !K. unfold xyz. f_equal; field; assumption.
Qed.

Lemma curve_ends n p U P : valid_knots n p U -> clamped n p U -> knot U p < knot U (p + 1) -> length P = S n ->
  positive_weights P ->
  rational_point U n p P (knot U p) = xyz (nth 0 P d4) /\
  rational_point U n p P (knot U (n + 1)) = xyz (nth n P d4).
Proof.
  intros V (C1 & C2) HU HP HW. pose proof V as (Hpn & HL & HS & HN). pose proof (sorted_mono U HS) as M.
  assert (knot U p <= knot U (n + 1)) as HD by (apply M; lia).
  assert (forall k, (k < S n)%nat -> ww (nth k P d4) <> 0) as WN.
  { intros k Hk E. assert (0 < ww (nth k P d4)) as L by (apply HW; apply nth_In; lia). rewrite E in L. discriminate. }
  split.
  - apply rational_delta; [lia|apply WN; lia|]. intros i.
    assert (is_span (knot U) n p (knot U p)) as IS.
    { split; [assumption|]. split; [apply Qcle_refl|]. left. rewrite <- (Nat.add_1_r p). assumption. }
    rewrite (basis_at_bsp n p U _ p) by (solve [assumption | split; [apply Qcle_refl|assumption]]).
    rewrite bsp_mult_left; [rewrite Nat.sub_diag; reflexivity|assumption|eapply valid_span_ok; eassumption|lia|].
    intros j Hj. rewrite C1 by lia. symmetry. apply C1. lia.
  - apply rational_delta; [lia|apply WN; lia|]. intros i.
    assert (is_span (knot U) n n (knot U (n + 1))) as IS.
    { split; [lia|]. split; [apply M; lia|]. right. split; [reflexivity|]. rewrite Nat.add_1_r. reflexivity. }
    rewrite (basis_at_bsp n p U _ n) by (solve [assumption | split; [assumption|apply Qcle_refl]]).
    rewrite bsp_mult_right; [reflexivity|assumption|eapply valid_span_ok; eassumption|].
    intros j Hj. apply C2; lia.
Qed.

(** ** generated knots *)
Lemma gen_knots_nth n p i : (p < n)%nat -> exists U, gen_knots n p = Ok U /\ length U = (n + p + 1)%nat /\
  ((i < n + p + 1)%nat -> nth i U 0 = Qc_of_nat (Nat.min (i - p) (n - p))).
Proof.
  intros H. unfold gen_knots. destruct (Nat.ltb_spec n p); [lia|]. eexists. split; [reflexivity|]. split.
  - rewrite !app_length, !repeat_length, map_length, seq_length. lia.
  - intros Hi. destruct (Nat.lt_ge_cases i (p + 1)) as [A|A].
    + rewrite app_nth1 by (rewrite repeat_length; assumption). rewrite nth_repeat.
      replace (Nat.min (i - p) (n - p)) with 0%nat by lia. reflexivity.
    + rewrite app_nth2 by (rewrite repeat_length; assumption). rewrite repeat_length.
      destruct (Nat.lt_ge_cases i (n + 1)) as [B|B].
      * rewrite app_nth1 by (rewrite map_length, seq_length; lia).
        rewrite (nth_indep _ 0 (Qc_of_nat 0)) by (rewrite map_length, seq_length; lia).
        rewrite map_nth, seq_nth by lia. f_equal. lia.
      * rewrite app_nth2 by (rewrite map_length, seq_length; lia). rewrite map_length, seq_length.
        rewrite (nth_indep _ _ (Qc_of_nat (n - p))) by (rewrite repeat_length; lia).
        rewrite nth_repeat. f_equal. lia.
Qed.

Lemma Qc_of_nat_le a b : (a <= b)%nat -> Qc_of_nat a <= Qc_of_nat b.
Proof.
  intros H. unfold Qc_of_nat. rewrite Qc_le_this, !this_of_Z. rewrite <- Zle_Qle. lia.
Qed.
Lemma Qc_of_nat_lt a b : (a < b)%nat -> Qc_of_nat a < Qc_of_nat b.
Proof.
  intros H. unfold Qc_of_nat. rewrite Qc_lt_this, !this_of_Z. rewrite <- Zlt_Qlt. lia.
Qed.

Lemma gen_knots_spec n p : (p <= n)%nat -> exists U, gen_knots (S n) p = Ok U /\ valid_knots n p U /\ clamped n p U /\
  knot U p < knot U (p + 1) /\ knot U p = 0 /\ knot U (n + 1) = Qc_of_nat (S n - p) /\
  forall i, (p <= i)%nat -> (i <= n + 1)%nat -> knot U i = Qc_of_nat (i - p).
Proof.
  intros H. destruct (gen_knots_nth (S n) p 0 ltac:(lia)) as (U & E & L & _).
  assert (forall i, (i < n + p + 2)%nat -> knot U i = Qc_of_nat (Nat.min (i - p) (S n - p))) as G.
  { intros i Hi. destruct (gen_knots_nth (S n) p i ltac:(lia)) as (U' & E' & L' & G'). rewrite E in E'. injection E' as <-.
    rewrite knot_nth by lia. apply G'. lia. }
  exists U. split; [exact E|]. split; [|split; [|split; [|split; [|split]]]].
  - split; [assumption|]. split; [lia|]. split.
    + intros i j Hij Hj. rewrite <- !knot_nth by lia. rewrite !G by lia. apply Qc_of_nat_le. lia.
    + rewrite !G by lia. apply Qc_of_nat_lt. lia.
  - split.
    + intros i Hi. rewrite !G by lia. f_equal. lia.
    + intros i Hi1 Hi2. rewrite !G by lia. f_equal. lia.
  - rewrite !G by lia. apply Qc_of_nat_lt. lia.
  - rewrite G by lia. replace (Nat.min (p - p) (S n - p)) with 0%nat by lia. reflexivity.
  - rewrite G by lia. f_equal. lia.
  - intros i H1 H2. rewrite G by lia. f_equal. lia.
Qed.
