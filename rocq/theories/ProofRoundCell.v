(** Cells of the spatial index in double arithmetic. *)
From Coq Require Import List ZArith QArith Qcanon Qround Bool Lia Lqa.
From Verif Require Import Base BaseFacts ModelVec ModelMemView ModelKd ModelPolyline ModelRoundKd ModelRoundCell SpecPolyline SpecKd SpecRound SpecRoundKd SpecRoundCell ProofPolyline ProofKd ProofRound ProofRoundDouble ProofRoundHull ProofRoundFull ProofRoundKd ProofRoundPolygon.
Import ListNotations.
Open Scope Qc_scope.

Lemma a_double_dbl x : a_double x -> dbl x.
Proof. intros H. destruct (full_some x x H) as (E & _). rewrite E. apply unbounded_dbl. Qed.
Lemma int_dbl k : (Z.abs k <= 2 ^ 53)%Z -> dbl (ofZ k).
Proof. intros H. exists k, 0%Z. split; [exact H|]. split; [lia|]. rewrite p2_0. ring. Qed.
Lemma p2_53 j : ofZ (2 ^ 53) * p2 j = p2 (j + 53).
Proof. rewrite (p2_shift j 53) by lia. reflexivity. Qed.

Lemma below_dbl k : (Z.abs k <= 2 ^ 40)%Z -> dbl (ofZ k + qc 1 2).
Proof.
  intros H. exists (2 * k + 1)%Z, (-1)%Z. split; [lia|]. split; [lia|]. rewrite ofZ_add, ofZ_mul. change (ofZ 2) with (1 + 1). change (ofZ 1) with 1.
  change (p2 (-1)) with (qc 1 2). assert ((1 + 1) * qc 1 2 = 1) as E by (apply Qc_is_canon; reflexivity).
  transitivity (ofZ k * ((1 + 1) * qc 1 2) + qc 1 2); [rewrite E; ring|ring].
Qed.
Lemma half_lt : qc 1 2 + qc 1 2 = 1. Proof. apply Qc_is_canon. reflexivity. Qed.

(** a number just below an integer that rounds to it *)
Lemma rounds_up k b : (Z.abs k <= 2 ^ 40)%Z -> dbl b -> b + qc 1 2 < ofZ k + 1 -> ofZ k + 1 <= unbounded (b + qc 1 2) -> k = 0%Z.
Proof.
  intros K B T U. pose proof half_lt as HH. set (h := qc 1 2) in *.
  assert (forall d, dbl d -> d < ofZ k + 1 -> d < b + h /\ ofZ k + 1 - (b + h) <= b + h - d) as BEST.
  { intros d D L. pose proof (unbounded_best (b + h) d D) as Q. pose proof (Qcle_Qcabs (unbounded (b + h) - (b + h))) as Q1.
    revert Q. apply (Qcabs_case (d - (b + h))); intros S Q; [exfalso|split]; qc_lra. }
  destruct (BEST (ofZ k) (int_dbl k ltac:(lia)) ltac:(qc_lra)) as (_ & BK).
  assert (ofZ k <= b) as BK' by qc_lra. clear BK.
  assert (~ dbl (b + h)) as ND by (intros D; rewrite (unbounded_id _ D) in U; qc_lra).
  assert (b <> ofZ k) as NE by (intros E; apply ND; rewrite E; apply below_dbl, K).
  destruct B as (m & j & M & J & EB).
  assert (j < 0)%Z as J0.
  { apply Z.nle_gt. intros J0. apply NE. rewrite EB, <- (ofZ_p2 j J0), <- ofZ_mul. f_equal.
    assert (k <= m * 2 ^ j)%Z by (apply Z.nlt_ge; intros L; apply ofZ_lt in L; rewrite ofZ_mul, (ofZ_p2 j J0), <- EB in L; qc_lra).
    assert (m * 2 ^ j < k + 1)%Z; [|lia]. apply ofZ_lt_inv. rewrite ofZ_mul, (ofZ_p2 j J0), <- EB, ofZ_add. change (ofZ 1) with 1. assert (0 <= h) by discriminate. qc_lra. }
  assert (h = ofZ (2 ^ (-1 - j)) * p2 j) as EH by (change h with (p2 (-1)); rewrite <- (p2_shift j (-1 - j)) by lia; f_equal; lia).
  assert (b + h = ofZ (m + 2 ^ (-1 - j)) * p2 j) as ET by (rewrite ofZ_add, EB, EH; ring).
  assert (~ (Z.abs (m + 2 ^ (-1 - j)) <= 2 ^ 53)%Z) as NM by (intros H; apply ND; exists (m + 2 ^ (-1 - j))%Z, j; split; [exact H|]; split; [exact J|exact ET]).
  pose proof (p2_pos j) as PJ.
  assert (forall x y, (x <= y)%Z -> ofZ x * p2 j <= ofZ y * p2 j) as ML by (intros x y L; apply ofZ_le in L; revert L PJ; generalize (ofZ x), (ofZ y), (p2 j); intros; qc_nra).
  assert (0 <= 2 ^ (-1 - j))%Z as PN by (apply Z.pow_nonneg; lia).
  destruct (Z.lt_trichotomy k 0) as [N|[Z0|P]]; [exfalso| exact Z0 |exfalso].
  - apply NM. assert (m + 2 ^ (-1 - j) <= 0)%Z; [|lia]. apply Z.nlt_ge. intros L.
    assert (ofZ 1 * p2 j <= b + h) as Q by (rewrite ET; apply ML; lia). change (ofZ 1) with 1 in Q. apply Zlt_le_succ, ofZ_le in N. rewrite <- Z.add_1_r, ofZ_add in N. change (ofZ 1) with 1 in N. change (ofZ 0) with 0 in N. qc_lra.
  - assert (ofZ 1 <= ofZ k) as K1 by (apply ofZ_le; lia). change (ofZ 1) with 1 in K1.
    assert (0 < m)%Z as M0 by (apply Z.nle_gt; intros L; pose proof (ML m 0%Z L) as Q; rewrite <- EB in Q; change (ofZ 0) with 0 in Q; qc_lra).
    assert (2 ^ 53 < m + 2 ^ (-1 - j))%Z as BIG by lia.
    assert (b <= p2 (j + 53)) as BP by (rewrite EB, <- p2_53; apply ML; lia).
    assert (p2 (j + 53) <= b + h) as PT by (rewrite ET, <- p2_53; apply ML; lia).
    assert (0 <= j + 53)%Z as JP.
    { apply Z.nlt_ge. intros L. assert (p2 (j + 53) <= p2 (-1)) as Q by (apply p2_mono; lia). change (p2 (-1)) with h in Q. assert (0 < h) by reflexivity. qc_lra. }
    rewrite <- (ofZ_p2 _ JP) in BP, PT.
    assert (k <= 2 ^ (j + 53))%Z as A1 by (apply Z.nlt_ge; intros L; apply ofZ_lt in L; qc_lra).
    assert (2 ^ (j + 53) < k + 1)%Z as A2 by (apply ofZ_lt_inv; rewrite ofZ_add; change (ofZ 1) with 1; qc_lra).
    replace (2 ^ (j + 53))%Z with k in BP by lia. apply NE. apply Qcle_antisym; assumption.
Qed.

(** doubles just below - 1/2 *)
Lemma below_half a : dbl a -> a < - qc 1 2 -> a <= - qc 1 2 - p2 (-53).
Proof.
  intros (m & j & M & J & EA) L. destruct (Z.le_gt_cases (-53) j) as [G|G].
  - assert (a = ofZ (m * 2 ^ (j + 53)) * p2 (-53)) as E by (rewrite ofZ_mul, EA; replace j with (-53 + (j + 53))%Z at 1 by lia; rewrite (p2_shift (-53)) by lia; ring).
    assert (qc 1 2 = ofZ (2 ^ 52) * p2 (-53)) as EH by (change (qc 1 2) with (p2 (-1)); rewrite <- (p2_shift (-53) 52) by lia; reflexivity).
    pose proof (p2_pos (-53)) as P. set (n := (m * 2 ^ (j + 53))%Z) in *.
    assert (n < - 2 ^ 52)%Z as N.
    { apply Z.nle_gt. intros H. apply ofZ_le in H. rewrite EH, E in L. change (ofZ (- 2 ^ 52)) with (- ofZ (2 ^ 52)) in H. revert H L P. generalize (ofZ n), (p2 (-53)), (ofZ (2 ^ 52)). intros. qc_nra. }
    assert (n <= - 2 ^ 52 - 1)%Z as N' by lia. apply ofZ_le in N'. rewrite ofZ_sub in N'. change (ofZ (- 2 ^ 52)) with (- ofZ (2 ^ 52)) in N'. change (ofZ 1) with 1 in N'.
    rewrite EH, E. revert N' P. generalize (ofZ n), (p2 (-53)), (ofZ (2 ^ 52)). intros. qc_nra.
  - exfalso. assert (- (ofZ (2 ^ 53) * p2 j) <= a) as Q.
    { rewrite EA. assert (- 2 ^ 53 <= m)%Z as H by lia. apply ofZ_le in H. change (ofZ (- 2 ^ 53)) with (- ofZ (2 ^ 53)) in H. pose proof (p2_pos j). revert H H0. generalize (ofZ m), (p2 j), (ofZ (2 ^ 53)). intros. qc_nra. }
    rewrite p2_53 in Q. assert (p2 (j + 53) <= p2 (-1)) as Q2 by (apply p2_mono; lia). change (p2 (-1)) with (qc 1 2) in Q2. qc_lra.
Qed.

Lemma cells_close a b : dbl a -> dbl b -> b - a < 1 -> let k := (qc_floor (unbounded (a + qc 1 2)) + 1)%Z in (Z.abs k <= 2 ^ 40)%Z ->
  (qc_floor (unbounded (b + qc 1 2)) <= k)%Z.
Proof.
  intros A B D k K. apply Z.nlt_ge. intros C.
  destruct (floor_bounds (unbounded (b + qc 1 2))) as (F1 & _). destruct (floor_bounds (unbounded (a + qc 1 2))) as (_ & F2).
  change Qc_of_Z with ofZ in *.
  assert (ofZ k + 1 <= unbounded (b + qc 1 2)) as U.
  { eapply Qcle_trans; [|exact F1]. change 1 with (ofZ 1) at 1. rewrite <- ofZ_add. apply ofZ_le. lia. }
  assert (a + qc 1 2 < ofZ k) as LA.
  { apply Qcnot_le_lt. intros L. apply unbounded_mono in L. rewrite (unbounded_id _ (int_dbl k ltac:(lia))) in L. unfold k in L. rewrite ofZ_add in L. change (ofZ 1) with 1 in L. qc_lra. }
  assert (k = 0%Z) as Z0 by (apply (rounds_up k b K B); [qc_lra|exact U]). rewrite Z0 in *. change (ofZ 0) with 0 in *.
  pose proof half_lt as HH. pose proof (below_half a A ltac:(qc_lra)) as LA'.
  assert (dbl (1 - p2 (-53))) as D1.
  { exists (2 ^ 53 - 1)%Z, (-53)%Z. split; [lia|]. split; [lia|]. rewrite ofZ_sub. change (ofZ 1) with 1. transitivity (ofZ (2 ^ 53) * p2 (-53) - p2 (-53)); [|ring]. rewrite p2_53. reflexivity. }
  pose proof (unbounded_best (b + qc 1 2) _ D1) as Q. pose proof (Qcle_Qcabs (unbounded (b + qc 1 2) - (b + qc 1 2))) as Q1.
  assert (0 < p2 (-53)) by apply p2_pos. revert Q. apply (Qcabs_case (1 - p2 (-53) - (b + qc 1 2))); intros S Q; qc_lra.
Qed.

Lemma scaled_dbl c : dbl c -> dbl (c / PL_EPS).
Proof.
  intros (m & k & M & K & E). exists m, (k + 52)%Z. split; [exact M|]. split; [lia|]. rewrite div_eps, E, (p2_shift k 52) by lia. change W with (ofZ (2 ^ 52)). ring.
Qed.

Section Doubles.
Variable fl : nat -> Qc -> option Qc.
Hypothesis FL : in_all_doubles fl.

Lemma fcell_inv c z : dbl c -> fcell_of fl c = Ok z -> z = qc_floor (unbounded (c / PL_EPS + qc 1 2)) /\ (Z.abs z <= 2 ^ 31)%Z.
Proof.
  intros D. unfold fcell_of. rewrite (proj1 FL). destruct (round_full (c / PL_EPS)) as [s|] eqn:E; [|discriminate].
  destruct (full_some _ _ E) as (E1 & _). rewrite (unbounded_id _ (scaled_dbl c D)) in E1. rewrite E1. clear E E1.
  rewrite (proj1 FL). destruct (round_full (c / PL_EPS + qc 1 2)) as [t|] eqn:E; [|discriminate]. destruct (full_some _ _ E) as (-> & _).
  intros H. destruct (int_op_cases (qc_floor (unbounded (c / PL_EPS + qc 1 2)))) as [X|X]; rewrite X in H; [discriminate|]. injection H as <-. split; [reflexivity|].
  set (n := qc_floor _) in *. destruct (Z.lt_ge_cases n (- 2 ^ 31)); [rewrite int_op_ub in X by lia; discriminate|].
  destruct (Z.lt_ge_cases n (2 ^ 31)); [lia|rewrite int_op_ub in X by lia; discriminate].
Qed.
Lemma fcell_le a b i j : dbl a -> dbl b -> b - a < qc 1 4503599627370496 -> fcell_of fl a = Ok i -> fcell_of fl b = Ok j -> (j <= i + 1)%Z.
Proof.
  intros A B D EA EB. destruct (fcell_inv a i A EA) as (-> & BI). destruct (fcell_inv b j B EB) as (-> & _).
  apply cells_close; [apply scaled_dbl, A|apply scaled_dbl, B| |lia]. rewrite !div_eps.
  assert (qc 1 4503599627370496 * W = 1) as E by (apply Qc_is_canon; reflexivity). assert (0 < W) as P by reflexivity. revert D E P. generalize (qc 1 4503599627370496), W. intros. qc_nra.
Qed.
Lemma fcell_near a b i j : dbl a -> dbl b -> Qcabs (a - b) < qc 1 4503599627370496 -> fcell_of fl a = Ok i -> fcell_of fl b = Ok j -> (-1 <= i - j <= 1)%Z.
Proof.
  intros A B D EA EB. pose proof (Qcle_Qcabs (a - b)). pose proof (Qcopp_Qcabs (a - b)).
  assert (j <= i + 1)%Z by (apply (fcell_le a b); try assumption; qc_lra). assert (i <= j + 1)%Z by (apply (fcell_le b a); try assumption; qc_lra). lia.
Qed.
Lemma fkey_inv p x y z : fkey_of fl p = Ok (x, y, z) -> fcell_of fl (vx p) = Ok x /\ fcell_of fl (vy p) = Ok y /\ fcell_of fl (vz p) = Ok z.
Proof.
  unfold fkey_of. destruct (fcell_of fl (vx p)); try discriminate. destruct (fcell_of fl (vy p)); try discriminate. destruct (fcell_of fl (vz p)); try discriminate.
  cbn [bind]. intros H. injection H as -> -> ->. auto.
Qed.

Lemma findex_all eps n : forall s ix0 ix, for_up n s (fun e ix => fadd_to_index fl eps ix e) ix0 = Ok ix ->
  (forall k x, In x (ix_at k ix0) -> In x (ix_at k ix)) /\
  forall e ep, (s <= e < s + n)%nat -> nth_error eps e = Some ep -> exists k, fkey_of fl (ep_point ep) = Ok k /\ In e (ix_at k ix).
Proof.
  induction n as [|n IH]; intros s ix0 ix H.
  - cbn [for_up] in H. injection H as ->. split; [auto|intros; lia].
  - cbn [for_up] in H. destruct (fadd_to_index fl eps ix0 s) as [ix1| |] eqn:E; try discriminate. cbn [bind] in H. destruct (IH _ _ _ H) as (G & F).
    unfold fadd_to_index in E. destruct (get eps s) as [ep0| |] eqn:EG; try discriminate. cbn [bind] in E. destruct (fkey_of fl (ep_point ep0)) as [k0| |] eqn:EK; try discriminate.
    cbn [bind] in E. injection E as <-. split.
    + intros k x Hx. apply G. destruct (pkey_dec k k0) as [->|N]; [rewrite ix_at_put_same; apply in_or_app; left; exact Hx|rewrite ix_at_put_other by exact N; exact Hx].
    + intros e ep He Hep. destruct (Nat.eq_dec e s) as [->|N]; [|apply F; [lia|exact Hep]].
      rewrite (get_nth _ _ _ Hep) in EG. injection EG as <-. exists k0. split; [exact EK|]. apply G. rewrite ix_at_put_same. apply in_or_app. right. left. reflexivity.
Qed.

Lemma ffind_in ix p l q k e : ffind_nearby_endpoints fl ix p = Ok l -> double_point p -> double_point q -> close_points q p ->
  fkey_of fl q = Ok k -> In e (ix_at k ix) -> In e l.
Proof.
  intros H (P1 & P2 & P3) (Q1 & Q2 & Q3) (C1 & C2 & C3) EK HE. apply a_double_dbl in P1, P2, P3, Q1, Q2, Q3. unfold ffind_nearby_endpoints in H.
  destruct (fkey_of fl p) as [[[x y] z]| |] eqn:EP; try discriminate. cbn [bind] in H. destruct k as [[x' y'] z'].
  apply fkey_inv in EP, EK. destruct EP as (X & Y & Z). destruct EK as (X' & Y' & Z').
  pose proof (fcell_near _ _ _ _ Q1 P1 C1 X' X) as DX. pose proof (fcell_near _ _ _ _ Q2 P2 C2 Y' Y) as DY. pose proof (fcell_near _ _ _ _ Q3 P3 C3 Z' Z) as DZ.
  set (f := fun d : pkey => let '(dx, dy, dz) := d in _) in H.
  set (g := fun d : pkey => let '(dx, dy, dz) := d in ix_at (x + dx, y + dy, z + dz)%Z ix).
  destruct (mapM_or f g offsets) as [E|E]; [| rewrite E in H; discriminate |].
  { intros [[dx dy] dz]. unfold f, g. destruct (int_op_cases (x + dx)) as [->| ->]; [left; reflexivity|]. cbn [bind].
    destruct (int_op_cases (y + dy)) as [->| ->]; [left; reflexivity|]. cbn [bind].
    destruct (int_op_cases (z + dz)) as [->| ->]; [left; reflexivity|right; reflexivity]. }
  rewrite E in H. cbn [bind] in H. assert (l = concat (map g offsets)) as -> by congruence. apply in_concat. exists (ix_at (x', y', z') ix). split; [|exact HE].
  apply in_map_iff. exists (x' - x, y' - y, z' - z)%Z. split; [unfold g; f_equal; f_equal; [f_equal|]; lia|]. apply offsets_iff. lia.
Qed.

(** ** The test for closeness *)
Lemma far_square d : Qcabs d >= p2 (-52) -> ext_le (Some (p2 (-104))) (fsq fl 0 (fl 0 d)).
Proof.
  intros H. assert (forall s, s = 1%Z \/ s = (-1)%Z -> fsq fl 0 (fl 0%nat (0 - ofZ s * p2 (-52))) = Some (p2 (-104))) as ONE.
  { intros s Hs. replace (0 - ofZ s * p2 (-52)) with (ofZ (- s) * p2 (-52)) by (destruct Hs as [->| ->]; cbn [Z.opp]; change (ofZ (-1)) with (- (1)); change (ofZ 1) with 1; ring).
    rewrite (fl_exact fl 0 _ _ FL) by (destruct Hs as [->| ->]; cbn; lia). cbn [fsq].
    replace (ofZ (- s) * p2 (-52) * (ofZ (- s) * p2 (-52))) with (ofZ 1 * p2 (-104)).
    - rewrite (fl_exact fl 0 _ _ FL) by (cbn; lia). f_equal.
    - change (-104)%Z with (-52 + -52)%Z. rewrite p2_add. destruct Hs as [->| ->]; cbn [Z.opp]; change (ofZ (-1)) with (- (1)); change (ofZ 1) with 1; ring. }
  pose proof (p2_pos (-52)) as P. revert H. apply Qcabs_case; intros S H.
  - rewrite <- (ONE (-1)%Z (or_intror eq_refl)). replace d with (0 - - d) by ring. apply away; [exact FL|]. right. change (ofZ (-1)) with (- (1)). split; qc_lra.
  - rewrite <- (ONE 1%Z (or_introl eq_refl)). replace d with (0 - - d) by ring. apply away; [exact FL|]. left. change (ofZ 1) with 1. split; qc_lra.
Qed.
Lemma fnear_sound root : root_spec root -> near_sound (fnear fl root).
Proof.
  intros (RM & R0) p q H. unfold fnear in H. destruct (fdist_sq3 fl p q) as [s|] eqn:E; [|discriminate]. qcb.
  assert (forall ax, Qcabs (coord p ax - coord q ax) < p2 (-52)) as A.
  { intros ax. apply Qcnot_le_lt. intros L. pose proof (far_square _ L) as G.
    pose proof (ext_trans _ _ _ G (axis_le fl FL p q ax)) as T. rewrite E in T. cbn in T.
    pose proof (RM _ _ (Qclt_le_weak _ _ (p2_pos (-104))) T) as R. rewrite R0 in R. change PL_EPS with (p2 (-52)) in H. exact (Qclt_not_le _ _ H R). }
  exact (conj (A AX) (conj (A AY) (A AZ))).
Qed.

Lemma findex_finds root : root_spec root -> forall eps ix p l, Forall (fun ep => double_point (ep_point ep)) eps -> double_point p ->
  fbuild_index fl eps = Ok ix -> ffind_nearby_endpoints fl ix p = Ok l ->
  forall e ep, nth_error eps e = Some ep -> fnear fl root (ep_point ep) p = true -> In e l.
Proof.
  intros RS eps ix p l DE DP HB HF e ep Hep HN. rewrite Forall_forall in DE.
  destruct (findex_all eps _ _ _ _ HB) as (_ & ALL). destruct (ALL e ep) as (k & EK & HI); [|exact Hep|].
  { cbn. split; [lia|]. apply nth_error_Some. congruence. }
  eapply ffind_in; [exact HF|exact DP|exact (DE ep (nth_error_In _ _ Hep))|exact (fnear_sound root RS _ _ HN)|exact EK|exact HI].
Qed.
End Doubles.
