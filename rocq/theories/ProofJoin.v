(** Curves of degree 1 are their control polygons. *)
From Coq Require Import List ZArith QArith Qcanon Bool Lia Lqa Field.
From Verif Require Import Base BaseFacts LoopFacts ModelVec ModelAabb ModelNurbs ModelNumeric ModelDerivative ModelJoin
  SpecNurbs SpecCurve SpecDerivative SpecJoin ProofBspline ProofNurbs ProofInsertCurve ProofMinimize ProofSmooth ProofDerBasis ProofCurve ProofDerivative ProofDerivativeTop ProofIntegrate.
Import ListNotations.
Open Scope Qc_scope.

Lemma bsp_one U s t : bsp U (S s) 1 s t = (U (s + 2)%nat - t) / (U (s + 2)%nat - U (s + 1)%nat) /\
  bsp U (S s) 1 (s + 1) t = (t - U (s + 1)%nat) / (U (s + 2)%nat - U (s + 1)%nat).
Proof.
  split; cbn [bsp].
  - destruct (Nat.eqb_spec s (S s)); [lia|]. destruct (Nat.eqb_spec (s + 1) (S s)); [|lia].
    replace (s + 1 + 1)%nat with (s + 2)%nat by lia. ring.
  - destruct (Nat.eqb_spec (s + 1) (S s)); [|lia]. destruct (Nat.eqb_spec (s + 1 + 1) (S s)); [lia|].
    replace (s + 1 + 1)%nat with (s + 2)%nat by lia. ring.
Qed.

Lemma span_bounds n p U t s : valid_knots n p U -> is_span (knot U) n (S s) t ->
  knot U (s + 1) <= t /\ t <= knot U (s + 2) /\ knot U (s + 1) < knot U (s + 2).
Proof. intros V I. pose proof (valid_span_ok _ _ _ _ _ V I) as H. replace (s + 1)%nat with (S s) by lia. replace (s + 2)%nat with (S (S s)) by lia. exact H. Qed.

(** the point of a degree 1 curve in span s + 1 *)
Definition mix (a b : vec4) (l : Qc) : vec3 :=
  let w := (1 - l) * ww a + l * ww b in
  V3 (((1 - l) * ww a * wx a + l * ww b * wx b) / w) (((1 - l) * ww a * wy a + l * ww b * wy b) / w)
     (((1 - l) * ww a * wz a + l * ww b * wz b) / w).

Lemma rational_one n U P t s : valid_knots n 1 U -> in_domain n 1 U t -> is_span (knot U) n (S s) t ->
  rational_point U n 1 P t = mix (nth s P d4) (nth (s + 1) P d4) ((t - knot U (s + 1)) / (knot U (s + 2) - knot U (s + 1))).
Proof.
  intros V D I. pose proof (span_bounds _ _ _ _ _ V I) as (A & B & C). destruct I as (Hs & I').
  assert (knot U (s + 2) - knot U (s + 1) <> 0) as NZ by (apply Qcsub_pos; assumption).
  assert (forall f, qsum (fun i => basis_at U n 1 t i * f i) (S n) =
    (1 - (t - knot U (s + 1)) / (knot U (s + 2) - knot U (s + 1))) * f s + (t - knot U (s + 1)) / (knot U (s + 2) - knot U (s + 1)) * f (s + 1)%nat) as K.
  { intros f. rewrite (qsum_ext _ (fun i => bsp (knot U) (S s) 1 i t * f i)).
    2:{ intros i _. rewrite (basis_at_bsp n 1 U t (S s)) by (try assumption; split; assumption). reflexivity. }
    rewrite bsp_sum_support by lia. cbn [qsum]. replace (S s - 1 + 0)%nat with s by lia. replace (S s - 1 + 1)%nat with (s + 1)%nat by lia.
    destruct (bsp_one (knot U) s t) as [-> ->]. field. assumption. }
  unfold rational_point, mix, weight_at, weighted_at. fold d4.
  rewrite (K (fun i => ww (nth i P d4))).
  assert (forall c : vec4 -> Qc, qsum (fun i => basis_at U n 1 t i * ww (nth i P d4) * c (nth i P d4)) (S n) =
    (1 - (t - knot U (s + 1)) / (knot U (s + 2) - knot U (s + 1))) * ww (nth s P d4) * c (nth s P d4)
    + (t - knot U (s + 1)) / (knot U (s + 2) - knot U (s + 1)) * ww (nth (s + 1) P d4) * c (nth (s + 1) P d4)) as K2.
  { intros c. rewrite (qsum_ext _ (fun i => basis_at U n 1 t i * (ww (nth i P d4) * c (nth i P d4)))) by (intros; ring).
    rewrite (K (fun i => ww (nth i P d4) * c (nth i P d4))). ring. }
  rewrite !K2. reflexivity.
Qed.

Lemma mix_weight_pos a b l : 0 < ww a -> 0 < ww b -> 0 <= l -> l <= 1 -> 0 < (1 - l) * ww a + l * ww b.
Proof.
  intros Ha Hb H0 H1. destruct (Qclt_le_dec 0 l) as [L|L].
  - assert (0 < l * ww b) by (apply Qcmul_pos; assumption). assert (0 <= (1 - l) * ww a) by (apply Qcmul_nonneg; qc_lra).
    set (x := l * ww b) in *. set (y := (1 - l) * ww a) in *. clearbody x y. qc_lra.
  - assert (l = 0) as -> by (apply Qcle_antisym; assumption). replace ((1 - 0) * ww a + 0 * ww b) with (ww a) by ring. assumption.
Qed.

Lemma mix_lerp a b l : 0 < ww a -> 0 < ww b -> 0 <= l -> l <= 1 ->
  mix a b l = lerp3 (xyz a) (xyz b) (l * ww b / ((1 - l) * ww a + l * ww b)).
Proof.
  intros Ha Hb H0 H1. pose proof (mix_weight_pos a b l Ha Hb H0 H1) as W.
  unfold mix, lerp3, xyz. cbn [vx vy vz]. assert ((1 - l) * ww a + l * ww b <> 0) as NZ by (intros E; rewrite E in W; discriminate W).
  f_equal; field; assumption.
Qed.

Lemma frac_range x y : 0 <= x -> 0 <= y -> 0 < x + y -> 0 <= x / (x + y) /\ x / (x + y) <= 1.
Proof.
  intros H0 H1 H2. split; [apply Qcdiv_nonneg; assumption|].
  assert (x / (x + y) = 1 - y / (x + y)) as -> by (field; intros E; rewrite E in H2; discriminate H2).
  assert (0 <= y / (x + y)) by (apply Qcdiv_nonneg; assumption). qc_lra.
Qed.

Lemma mix_segment a b l : 0 < ww a -> 0 < ww b -> 0 <= l -> l <= 1 -> on_segment (xyz a) (xyz b) (mix a b l).
Proof.
  intros Ha Hb H0 H1. pose proof (mix_weight_pos a b l Ha Hb H0 H1) as W.
  exists (l * ww b / ((1 - l) * ww a + l * ww b)).
  destruct (frac_range (l * ww b) ((1 - l) * ww a)) as [F0 F1].
  - apply Qcmul_nonneg; qc_lra.
  - apply Qcmul_nonneg; qc_lra.
  - rewrite Qcplus_comm. assumption.
  - rewrite (Qcplus_comm (l * ww b)) in F0, F1. split; [assumption|]. split; [assumption|]. apply mix_lerp; assumption.
Qed.

Lemma segment_mix a b p : 0 < ww a -> 0 < ww b -> on_segment (xyz a) (xyz b) p -> exists l, 0 <= l /\ l <= 1 /\ p = mix a b l.
Proof.
  intros Ha Hb (s & H0 & H1 & ->).
  assert (0 < s * ww a + (1 - s) * ww b) as W.
  { pose proof (mix_weight_pos b a s Hb Ha H0 H1) as K. rewrite Qcplus_comm. assumption. }
  destruct (frac_range (s * ww a) ((1 - s) * ww b)) as [F0 F1]; [apply Qcmul_nonneg; qc_lra..|assumption|].
  exists (s * ww a / (s * ww a + (1 - s) * ww b)). split; [assumption|]. split; [assumption|].
  rewrite mix_lerp by assumption. f_equal.
  assert (ww a <> 0) as Na by (intros E; rewrite E in Ha; discriminate Ha). assert (ww b <> 0) as Nb by (intros E; rewrite E in Hb; discriminate Hb).
  assert (s * ww a + (1 - s) * ww b <> 0) as NW by (intros E; rewrite E in W; discriminate W).
  assert ((1 - s * ww a / (s * ww a + (1 - s) * ww b)) * ww a + s * ww a / (s * ww a + (1 - s) * ww b) * ww b = ww a * ww b / (s * ww a + (1 - s) * ww b)) as -> by (field; assumption).
  field. repeat split; assumption.
Qed.

Lemma on_polygon_nth l p d : on_polygon l p <-> exists i, (S i < length l)%nat /\ on_segment (nth i l d) (nth (i + 1) l d) p.
Proof.
  induction l as [|a l IH]; [split; [intros []|intros (i & H & _); cbn in H; lia]|].
  destruct l as [|b l].
  - split; [intros []|intros (i & H & _); cbn in H; lia].
  - change (on_polygon (a :: b :: l) p) with (on_segment a b p \/ on_polygon (b :: l) p). rewrite IH. split.
    + intros [H|(i & Hi & H)]; [exists 0%nat; split; [cbn; lia|exact H]|exists (S i); split; [cbn in *; lia|exact H]].
    + intros (i & Hi & H). destruct i as [|i]; [left; exact H|right; exists i; split; [cbn in *; lia|exact H]].
Qed.

Lemma nth_xyz P i : nth i (map xyz P) (xyz d4) = xyz (nth i P d4).
Proof. apply map_nth. Qed.

Lemma span_of n U t : valid_knots n 1 U -> in_domain n 1 U t -> exists s, (s < n)%nat /\ is_span (knot U) n (S s) t.
Proof.
  intros V D. destruct (find_span_spec n 1 U t V D) as (s & _ & Hs & I). destruct s as [|s]; [lia|]. exists s. split; [destruct I; lia|assumption].
Qed.

Lemma pos_nth P i : positive_weights P -> (i < length P)%nat -> 0 < ww (nth i P d4).
Proof. intros W H. apply W. apply nth_In. assumption. Qed.

Lemma polygon_in c n p : good_curve c n -> nc_degree c = 1%nat -> positive_weights (nc_cps c) -> traced c n p -> on_polygon (map xyz (nc_cps c)) p.
Proof.
  intros (HP & V & H8) E1 W (t & D & Ev). unfold in_curve in D. rewrite (evaluate_positive c n t HP V H8 D W) in Ev. injection Ev as <-.
  rewrite E1 in *. destruct (span_of _ _ _ V D) as (s & Hs & I). rewrite (rational_one _ _ _ _ s V D I).
  apply (on_polygon_nth _ _ (xyz d4)). exists s. rewrite map_length, !nth_xyz. split; [lia|].
  pose proof (span_bounds _ _ _ _ _ V I) as (A & B & C).
  destruct (frac_range (t - knot (nc_knots c) (s + 1)) (knot (nc_knots c) (s + 2) - t)) as [F0 F1]; [qc_lra..|].
  replace (t - knot (nc_knots c) (s + 1) + (knot (nc_knots c) (s + 2) - t)) with (knot (nc_knots c) (s + 2) - knot (nc_knots c) (s + 1)) in F0, F1 by ring.
  apply mix_segment; try assumption; apply pos_nth; try assumption; lia.
Qed.

(** one segment, with its range of parameters *)
Lemma polygon_segment c n i p : good_curve c n -> nc_degree c = 1%nat -> positive_weights (nc_cps c) ->
  (i < n)%nat -> simple_knots n 1 (nc_knots c) ->
  on_segment (xyz (nth i (nc_cps c) d4)) (xyz (nth (i + 1) (nc_cps c) d4)) p ->
  exists t, knot (nc_knots c) (i + 1) <= t /\ t <= knot (nc_knots c) (i + 2) /\ in_curve c n t /\ evaluate c t = Ok p.
Proof.
  intros (HP & V & H8) E1 W Hi HSK Hseg.
  pose proof V as (_ & HL & HS & HN). pose proof (sorted_mono _ HS) as M.
  set (U := nc_knots c) in *.
  assert (knot U (i + 1) < knot U (i + 2)) as HK by (replace (i + 2)%nat with (i + 1 + 1)%nat by lia; apply HSK; lia).
  assert (0 < ww (nth i (nc_cps c) d4)) as Wa by (apply pos_nth; [assumption|lia]).
  assert (0 < ww (nth (i + 1) (nc_cps c) d4)) as Wb by (apply pos_nth; [assumption|lia]).
  destruct (segment_mix _ _ _ Wa Wb Hseg) as (l & L0 & L1 & ->). clear Hseg.
  set (h := knot U (i + 2) - knot U (i + 1)). assert (0 < h) as Hh by (unfold h; qc_lra).
  assert (0 <= l * h) as P1 by (apply Qcmul_nonneg; qc_lra). assert (0 <= (1 - l) * h) as P2 by (apply Qcmul_nonneg; qc_lra).
  assert ((1 - l) * h = h - l * h) as E by ring. rewrite E in P2. clear E.
  set (t := knot U (i + 1) + l * h).
  assert (knot U (i + 1) <= t /\ t <= knot U (i + 2)) as [T1 T2]. { unfold t. set (lh := l * h) in *. clearbody lh. unfold h in *. split; qc_lra. }
  assert (in_domain n 1 U t) as D.
  { assert (knot U 1 <= knot U (i + 1)) by (apply M; lia). assert (knot U (i + 2) <= knot U (n + 1)) by (apply M; lia). split; qc_lra. }
  assert (rational_point U n 1 (nc_cps c) t = mix (nth i (nc_cps c) d4) (nth (i + 1) (nc_cps c) d4) l) as R.
  { rewrite E1 in V. assert ((t - knot U (i + 1)) / h = l) as EL by (unfold t; field; intros E; rewrite E in Hh; discriminate Hh).
    destruct (Qclt_le_dec t (knot U (i + 2))) as [LT|GE].
    - assert (is_span (knot U) n (S i) t) as I. { split; [lia|]. replace (S i) with (i + 1)%nat by lia. split; [assumption|]. left. replace (S (i + 1)) with (i + 2)%nat by lia. assumption. }
      rewrite (rational_one _ _ _ _ i V D I). fold h. rewrite EL. reflexivity.
    - assert (t = knot U (i + 2)) as Et by (apply Qcle_antisym; assumption).
      assert (l = 1) as ->. { rewrite <- EL, Et. unfold h. field. apply Qcsub_pos. assumption. }
      destruct (span_of _ _ _ V D) as (s & Hs & I). rewrite (rational_one _ _ _ _ s V D I).
      pose proof I as (_ & I1 & I2).
      assert (i <= s)%nat as His. { destruct (Nat.le_gt_cases i s); [assumption|exfalso]. assert (knot U (S (S s)) <= knot U (i + 1)) by (apply M; lia). destruct I2 as [I2|[I2 I3]]; [qc_lra|]. lia. }
      destruct (Nat.eq_dec i s) as [<-|NE].
      + fold h. rewrite EL. reflexivity.
      + assert (knot U (s + 1) = t) as ES. { apply Qcle_antisym; [replace (s + 1)%nat with (S s) by lia; assumption|]. rewrite Et. apply M. lia. }
        rewrite ES. replace (t - t) with 0 by ring.
        destruct (Nat.eq_dec s (i + 1)) as [->|NE2].
        * unfold mix. replace (0 / (knot U (i + 1 + 2) - t)) with 0 by (unfold Qcdiv; ring).
          f_equal; field; intros EE; (assert (ww (nth (i + 1) (nc_cps c) d4) = 0) as Z by (first [exact EE | rewrite <- EE; ring]); rewrite Z in Wb; discriminate Wb).
        * exfalso. assert (knot U (i + 2) < knot U (i + 2 + 1)) by (apply HSK; lia). assert (knot U (i + 2 + 1) <= knot U (s + 1)) by (apply M; lia). qc_lra. }
  exists t. split; [assumption|]. split; [assumption|]. split; [unfold in_curve; rewrite E1; exact D|].
  rewrite (evaluate_positive c n t HP V H8); [|rewrite E1; exact D|assumption]. rewrite E1. fold U. rewrite R. reflexivity.
Qed.

Lemma polygon_top c n p : good_curve c n -> nc_degree c = 1%nat -> positive_weights (nc_cps c) -> simple_knots n 1 (nc_knots c) ->
  traced c n p <-> on_polygon (map xyz (nc_cps c)) p.
Proof.
  intros G E1 W SK. split; [apply polygon_in; assumption|]. intros H. apply (on_polygon_nth _ _ (xyz d4)) in H. destruct H as (i & Hi & H).
  rewrite map_length in Hi. rewrite !nth_xyz in H. pose proof G as (HP & _).
  destruct (polygon_segment c n i p G E1 W ltac:(lia) SK H) as (t & _ & _ & D & Ev). exists t. auto.
Qed.
