(** Convex polygons: the point test and the complete classification. *)
From Coq Require Import List ZArith QArith Qcanon Bool Lia Lqa Field Permutation.
From Verif Require Import Base BaseFacts LoopFacts ModelVec ModelAabb ModelPolygon SpecNurbs SpecPolygon ProofBspline ProofSurface ProofMinimize ProofPolygon ProofSat ProofPip.
Import ListNotations.
Open Scope Qc_scope.

Lemma ccw_edge_strict P i k : convex_ccw P -> (i < length P)%nat -> (k < length P)%nat -> k <> i -> k <> succ_in P i -> 0 < turn (pt P i) (pt P (succ_in P i)) (pt P k).
Proof.
  intros (L & H) Hi Hk N0 N1. unfold succ_in in *. destruct (Nat.eqb_spec (S i) (length P)) as [E|E].
  - rewrite turn_cyc. apply H; lia.
  - destruct (Nat.lt_ge_cases k i) as [C|C]; [rewrite <- turn_cyc|]; apply H; lia.
Qed.
Lemma edge_identity a b c d y : (uy b - y) * turn c d a + (y - uy a) * turn c d b + ((uy d - y) * turn a b c + (y - uy c) * turn a b d) = 0.
Proof. unfold turn. ring. Qed.
Lemma sum_zero a b c d : 0 <= a -> 0 <= b -> 0 <= c -> 0 <= d -> a + b + (c + d) = 0 -> a = 0 /\ b = 0.
Proof. intros. split; qc_lra. Qed.
Lemma mul_pos_zero a b : 0 < a -> a * b = 0 -> b = 0.
Proof. intros A E. apply Qcmult_integral in E. destruct E as [E|E]; [rewrite E in A; exfalso; revert A; vm_compute; discriminate|exact E]. Qed.

Lemma up_unique P p i j : convex_ccw P -> (i < length P)%nat -> (j < length P)%nat -> up P p i = true -> up P p j = true -> i = j.
Proof.
  intros C Hi Hj Ui Uj. destruct (up_edge _ _ _ Ui) as (A1 & A2). destruct (up_edge _ _ _ Uj) as (B1 & B2).
  pose proof (succ_lt P i Hi) as Si. pose proof (succ_lt P j Hj) as Sj.
  pose proof (edge_identity (pt P i) (pt P (succ_in P i)) (pt P j) (pt P (succ_in P j)) (uy p)) as E.
  apply sum_zero in E; try (apply Qcmul_nonneg; [clear - A1 A2 B1 B2; qc_lra|apply ccw_edge; assumption]). destruct E as (E & _).
  apply mul_pos_zero in E; [|clear - A2; qc_lra].
  destruct (Nat.eq_dec i j) as [|N]; [assumption|exfalso]. destruct (Nat.eq_dec i (succ_in P j)) as [N'|N'].
  - rewrite <- N' in B2. clear - A1 B2. qc_lra.
  - pose proof (ccw_edge_strict P j i C Hj Hi N N') as S. rewrite E in S. revert S. vm_compute. discriminate.
Qed.
Lemma succ_inj P i j : (i < length P)%nat -> (j < length P)%nat -> succ_in P i = succ_in P j -> i = j.
Proof. unfold succ_in. destruct (Nat.eqb_spec (S i) (length P)), (Nat.eqb_spec (S j) (length P)); lia. Qed.
Lemma dn_unique P p i j : convex_ccw P -> (i < length P)%nat -> (j < length P)%nat -> dn P p i = true -> dn P p j = true -> i = j.
Proof.
  intros C Hi Hj Ui Uj. destruct (dn_edge _ _ _ Ui) as (A1 & A2). destruct (dn_edge _ _ _ Uj) as (B1 & B2).
  pose proof (succ_lt P i Hi) as Si. pose proof (succ_lt P j Hj) as Sj.
  pose proof (edge_identity (pt P i) (pt P (succ_in P i)) (pt P j) (pt P (succ_in P j)) (uy p)) as E.
  assert ((uy p - uy (pt P (succ_in P i))) * turn (pt P j) (pt P (succ_in P j)) (pt P i) + (uy (pt P i) - uy p) * turn (pt P j) (pt P (succ_in P j)) (pt P (succ_in P i)) +
    ((uy p - uy (pt P (succ_in P j))) * turn (pt P i) (pt P (succ_in P i)) (pt P j) + (uy (pt P j) - uy p) * turn (pt P i) (pt P (succ_in P i)) (pt P (succ_in P j))) = 0) as E'
    by (match type of E with ?l = _ => transitivity (- l); [ring|rewrite E; ring] end).
  apply sum_zero in E'; try (apply Qcmul_nonneg; [clear - A1 A2 B1 B2; qc_lra|apply ccw_edge; assumption]). destruct E' as (_ & E').
  apply mul_pos_zero in E'; [|clear - A1; qc_lra].
  destruct (Nat.eq_dec i j) as [|N]; [assumption|exfalso]. destruct (Nat.eq_dec (succ_in P i) j) as [N'|N'].
  - rewrite N' in A2. clear - A2 B1. qc_lra.
  - assert (succ_in P i <> succ_in P j) as N2 by (intros Q; apply N, (succ_inj P); assumption).
    pose proof (ccw_edge_strict P j (succ_in P i) C Hj Si N' N2) as S. rewrite E' in S. revert S. vm_compute. discriminate.
Qed.

(** hulls are convex *)
Lemma hull_seg P q r p s : in_hull P q -> in_hull P r -> 0 <= s -> s <= 1 -> ux p = (1 - s) * ux q + s * ux r -> uy p = (1 - s) * uy q + s * uy r -> in_hull P p.
Proof.
  intros (w & W0 & W1 & Wx & Wy) (v & V0 & V1 & Vx & Vy) S0 S1 Ex Ey. exists (fun i => (1 - s) * w i + s * v i). split; [|split; [|split]].
  - intros i. pose proof (Qcmul_nonneg (1 - s) (w i) ltac:(qc_lra) (W0 i)). pose proof (Qcmul_nonneg s (v i) S0 (V0 i)). qc_lra.
  - rewrite qsum_add, !qsum_scale, W1, V1. ring.
  - rewrite Ex, Wx, Vx, <- !qsum_scale, <- qsum_add. apply qsum_ext. intros. ring.
  - rewrite Ey, Wy, Vy, <- !qsum_scale, <- qsum_add. apply qsum_ext. intros. ring.
Qed.
Lemma straddle_hull P p i : (i < length P)%nat -> up P p i = true \/ dn P p i = true -> in_hull P (V2 (cx (pt P i) (pt P (succ_in P i)) p) (uy p)).
Proof.
  intros Hi S. destruct (straddle_point P p i S) as (s & S0 & S1 & Ex & Ey).
  apply (hull_seg P (pt P i) (pt P (succ_in P i)) _ s); try assumption; [apply vertex_in_hull; exact Hi|apply vertex_in_hull, succ_lt, Hi].
Qed.
Lemma between_weights a b x : a <= x -> x <= b -> exists s, 0 <= s /\ s <= 1 /\ x = (1 - s) * a + s * b.
Proof.
  intros A B. destruct (Qceqb_spec a b) as [E|N].
  - exists 0. split; [apply Qcle_refl|]. split; [vm_compute; discriminate|]. subst b. assert (x = a) by (apply Qcle_antisym; assumption). subst. ring.
  - assert (0 < b - a) as P by (apply Qc_neq_or in N; destruct N; [|exfalso]; qc_lra). assert (b - a <> 0) as NZ by (intros Z; rewrite Z in P; revert P; vm_compute; discriminate).
    exists ((x - a) / (b - a)). split; [|split].
    + apply (mul_nonneg_cancel (b - a)); [exact P|]. replace ((b - a) * ((x - a) / (b - a))) with (x - a) by (field; exact NZ). qc_lra.
    + cut (0 <= 1 - (x - a) / (b - a)); [intros; qc_lra|]. apply (mul_nonneg_cancel (b - a)); [exact P|]. replace ((b - a) * (1 - (x - a) / (b - a))) with (b - x) by (field; exact NZ). qc_lra.
    + field. exact NZ.
Qed.
Lemma hull_between P q r p : in_hull P q -> in_hull P r -> uy q = uy p -> uy r = uy p -> ux q <= ux p -> ux p <= ux r -> in_hull P p.
Proof.
  intros Q R Eq Er A B. destruct (between_weights _ _ _ A B) as (s & S0 & S1 & E). apply (hull_seg P q r p s); try assumption. rewrite Eq, Er. ring.
Qed.

Lemma pip_hull_ccw P p : convex_ccw P -> point_in_polygon P p = true -> in_hull P p.
Proof.
  intros C H. rewrite pip_count, cross_sum in H. set (l := seq 0 (length P)) in *.
  assert (forall i, In i l -> (i < length P)%nat) as LT by (intros i Hi; apply in_seq in Hi; lia).
  assert (cnt (up P p) l <= 1)%nat as U1 by (apply cnt_unique; [apply seq_NoDup|]; intros; apply (up_unique P p); auto).
  pose proof (up_dn P p) as UD. fold l in UD.
  rewrite (cnt_split (up P p) (cross_at P p)) in U1, UD. rewrite (cnt_split (dn P p) (cross_at P p)) in UD.
  set (uc := cnt (fun i => up P p i && cross_at P p i) l) in *. set (un := cnt (fun i => up P p i && negb (cross_at P p i)) l) in *.
  set (dc := cnt (fun i => dn P p i && cross_at P p i) l) in *. set (dd := cnt (fun i => dn P p i && negb (cross_at P p i)) l) in *.
  assert ((0 < uc /\ 0 < dd) \/ (0 < un /\ 0 < dc))%nat as [(A & B)|(A & B)].
  { destruct (Nat.eq_dec uc 0) as [E1|E1], (Nat.eq_dec dc 0) as [E2|E2].
    - rewrite E1, E2 in H. discriminate.
    - right. lia.
    - left. lia.
    - assert (uc = 1)%nat as F1 by lia. assert (dc = 1)%nat as F2 by lia. rewrite F1, F2 in H. discriminate. }
  - destruct (cnt_one _ _ A) as (i & Hi & Ei). destruct (cnt_one _ _ B) as (j & Hj & Ej). apply andb_true_iff in Ei, Ej. destruct Ei as (Ei & Xi), Ej as (Ej & Xj).
    rewrite straddle_cross in Xi by auto. rewrite straddle_cross in Xj by auto. rewrite negb_true_iff in Xj.
    apply (hull_between P _ _ p (straddle_hull P p j (LT j Hj) (or_intror Ej)) (straddle_hull P p i (LT i Hi) (or_introl Ei))); cbn [ux uy]; try reflexivity; qcb.
    + clear - Xi Xj. qc_lra.
    + clear - Xi Xj. qc_lra.
  - destruct (cnt_one _ _ A) as (i & Hi & Ei). destruct (cnt_one _ _ B) as (j & Hj & Ej). apply andb_true_iff in Ei, Ej. destruct Ei as (Ei & Xi), Ej as (Ej & Xj).
    rewrite straddle_cross in Xi by auto. rewrite straddle_cross in Xj by auto. rewrite negb_true_iff in Xi.
    apply (hull_between P _ _ p (straddle_hull P p i (LT i Hi) (or_introl Ei)) (straddle_hull P p j (LT j Hj) (or_intror Ej))); cbn [ux uy]; try reflexivity; qcb.
    + clear - Xi Xj. qc_lra.
    + clear - Xi Xj. qc_lra.
Qed.
Lemma in_hull_incl P Q p : in_hull P p -> (forall q, In q P -> in_hull Q q) -> in_hull Q p.
Proof.
  intros (w & W0 & W1 & Wx & Wy) H.
  assert (forall i, exists v : nat -> Qc, (i < length P)%nat -> (forall j, 0 <= v j) /\ qsum v (length Q) = 1 /\ ux (pt P i) = qsum (fun j => v j * ux (pt Q j)) (length Q) /\ uy (pt P i) = qsum (fun j => v j * uy (pt Q j)) (length Q)) as V.
  { intros i. destruct (Nat.lt_ge_cases i (length P)) as [L|L].
    - destruct (H (pt P i) (nth_In _ _ L)) as (v & V). exists v. intros _. exact V.
    - exists (fun _ => 0). intros. lia. }
  assert (forall n, (n <= length P)%nat -> exists V : nat -> nat -> Qc, forall i, (i < n)%nat -> (forall j, 0 <= V i j) /\ qsum (V i) (length Q) = 1 /\ ux (pt P i) = qsum (fun j => V i j * ux (pt Q j)) (length Q) /\ uy (pt P i) = qsum (fun j => V i j * uy (pt Q j)) (length Q)) as CH.
  { induction n; intros Hn; [exists (fun _ _ => 0); intros; lia|]. destruct IHn as (F & HF); [lia|]. destruct (V n) as (v & Hv). exists (fun i => if Nat.eqb i n then v else F i). intros i Hi.
    destruct (Nat.eqb_spec i n) as [->|N]; [apply Hv; lia|apply HF; lia]. }
  destruct (CH (length P) (le_n _)) as (F & HF). exists (fun j => qsum (fun i => if Nat.ltb i (length P) then w i * F i j else 0) (length P)).
  split; [|split; [|split]].
  - intros j. apply qsum_nonneg. intros i Hi. destruct (Nat.ltb_spec i (length P)); [|lia]. apply Qcmul_nonneg; [apply W0|apply HF, Hi].
  - rewrite qsum_swap. rewrite <- W1. apply qsum_ext. intros i Hi. destruct (Nat.ltb_spec i (length P)); [|lia]. rewrite qsum_scale. destruct (HF i Hi) as (_ & E & _). rewrite E. ring.
  - rewrite Wx. transitivity (qsum (fun i => qsum (fun j => w i * (F i j * ux (pt Q j))) (length Q)) (length P)).
    + apply qsum_ext. intros i Hi. rewrite qsum_scale. destruct (HF i Hi) as (_ & _ & E & _). rewrite <- E. reflexivity.
    + rewrite qsum_swap. apply qsum_ext. intros j Hj. rewrite Qcmult_comm, <- qsum_scale. apply qsum_ext. intros i Hi. destruct (Nat.ltb_spec i (length P)); [|lia]. ring.
  - rewrite Wy. transitivity (qsum (fun i => qsum (fun j => w i * (F i j * uy (pt Q j))) (length Q)) (length P)).
    + apply qsum_ext. intros i Hi. rewrite qsum_scale. destruct (HF i Hi) as (_ & _ & _ & E). rewrite <- E. reflexivity.
    + rewrite qsum_swap. apply qsum_ext. intros j Hj. rewrite Qcmult_comm, <- qsum_scale. apply qsum_ext. intros i Hi. destruct (Nat.ltb_spec i (length P)); [|lia]. ring.
Qed.
Lemma hull_rev P p : in_hull (rev P) p -> in_hull P p.
Proof. intros H. apply (in_hull_incl _ _ _ H). intros q Hq. apply point_in_hull. apply in_rev. exact Hq. Qed.
Lemma pip_hull : forall P p, convex_polygon P -> point_in_polygon P p = true -> in_hull P p.
Proof.
  intros P p [C|C] H; [apply pip_hull_ccw; assumption|]. apply hull_rev. apply pip_hull_ccw; [exact C|]. rewrite pip_rev. exact H.
Qed.

(** on the left of every edge, hence in the hull *)
Lemma left_hull P p : convex_ccw P -> (forall i, (i < length P)%nat -> 0 <= turn (pt P i) (pt P (succ_in P i)) p) -> in_hull P p.
Proof.
  intros C H. destruct (separation [p] P) as [(q & Q1 & Q2)|(d & D)].
  - apply singleton_hull in Q1. subst q. exact Q2.
  - exfalso. destruct (extreme_vertex P (v2neg d) (convex_nonempty P (or_introl C))) as (i & Hi & M).
    set (a := pt P (pred_in P i)). set (b := pt P i). set (c := pt P (succ_in P i)).
    pose proof (ccw_corner P i C Hi) as T. fold a b c in T.
    pose proof (H (pred_in P i) (pred_lt P i Hi)) as H1. rewrite (succ_pred P i Hi) in H1. fold a b in H1. pose proof (H i Hi) as H2. fold b c in H2.
    pose proof (D p b (or_introl eq_refl) (nth_In _ _ Hi)) as S.
    pose proof (M a (nth_In _ _ (pred_lt P i Hi))) as Ma. pose proof (M c (nth_In _ _ (succ_lt P i Hi))) as Mc. fold b in Ma, Mc. unfold v2neg in Ma, Mc. rewrite !v2dot_neg in Ma, Mc.
    assert (turn a b c * (v2dot p d - v2dot b d) = - ((v2dot b d - v2dot c d) * turn a b p + (v2dot b d - v2dot a d) * turn b c p)) as E by (unfold turn, v2dot; ring).
    pose proof (Qcmul_pos _ (v2dot p d - v2dot b d) T ltac:(clear - S; qc_lra)) as X1.
    pose proof (Qcmul_nonneg (v2dot b d - v2dot c d) _ ltac:(clear - Mc; qc_lra) H1) as X2. pose proof (Qcmul_nonneg (v2dot b d - v2dot a d) _ ltac:(clear - Ma; qc_lra) H2) as X3.
    clear - E X1 X2 X3. qc_lra.
Qed.

(** without an upward edge all vertices are on the same side *)
Lemma lo_constant P p : cnt (up P p) (seq 0 (length P)) = 0%nat -> forall i, (i < length P)%nat -> lo P p i = lo P p 0.
Proof.
  intros U. assert (cnt (dn P p) (seq 0 (length P)) = 0%nat) as D by (rewrite <- up_dn; exact U). rewrite cnt_zero in U, D.
  induction i; intros Hi; [reflexivity|]. rewrite <- IHi by lia. specialize (U i ltac:(apply in_seq; lia)). specialize (D i ltac:(apply in_seq; lia)).
  unfold up, dn, succ_in in U, D. destruct (Nat.eqb_spec (S i) (length P)); [lia|]. destruct (lo P p i), (lo P p (S i)); try reflexivity; discriminate.
Qed.
Lemma min_coord P : P <> [] -> exists i, (i < length P)%nat /\ forall q, In q P -> uy (pt P i) <= uy q.
Proof. intros H. destruct (extreme_vertex P (V2 0 1) H) as (i & Hi & M). exists i. split; [exact Hi|]. intros q Hq. specialize (M q Hq). unfold v2dot in M. cbn [ux uy] in M. qc_lra. Qed.
Lemma max_coord P : P <> [] -> exists i, (i < length P)%nat /\ forall q, In q P -> uy q <= uy (pt P i).
Proof. intros H. destruct (extreme_vertex P (V2 0 (- (1))) H) as (i & Hi & M). exists i. split; [exact Hi|]. intros q Hq. specialize (M q Hq). unfold v2dot in M. cbn [ux uy] in M. qc_lra. Qed.
Lemma sign_split x y : 0 < x * y -> 0 <= x -> 0 < y.
Proof. intros H X. destruct (Qcltb_spec 0 y) as [|N]; [assumption|exfalso]. pose proof (Qcmul_nonneg x (- y) X ltac:(qc_lra)). qc_lra. Qed.

Lemma up_exists P p : convex_ccw P -> left_of_all P p -> cnt (up P p) (seq 0 (length P)) <> 0%nat.
Proof.
  intros C L U. pose proof (lo_constant P p U) as K. pose proof (convex_nonempty P (or_introl C)) as NE.
  assert (in_hull P p) as HP by (apply left_hull; [exact C|]; intros; apply Qclt_le_weak, L; assumption).
  destruct (lo P p 0) eqn:L0.
  - destruct (max_coord P NE) as (i & Hi & M).
    assert (uy p = uy (pt P i)) as EY.
    { apply Qcle_antisym.
      - pose proof (hull_half P p (V2 0 1) (uy (pt P i)) HP) as X. unfold v2dot in X. cbn [ux uy] in X. cut (ux p * 0 + uy p * 1 <= uy (pt P i)); [intros; qc_lra|]. apply X. intros q Hq. specialize (M q Hq). qc_lra.
      - specialize (K i Hi). unfold lo in K. qcb. assumption. }
    set (a := pt P (pred_in P i)). set (b := pt P i) in *. set (c := pt P (succ_in P i)).
    pose proof (L (pred_in P i) (pred_lt P i Hi)) as L1. rewrite (succ_pred P i Hi) in L1. fold a b in L1. pose proof (L i Hi) as L2. fold b c in L2.
    pose proof (M a (nth_In _ _ (pred_lt P i Hi))) as Ma. pose proof (M c (nth_In _ _ (succ_lt P i Hi))) as Mc.
    assert (turn a b p = (uy b - uy a) * (ux b - ux p)) as E1 by (unfold turn; rewrite EY; ring).
    assert (turn b c p = (uy b - uy c) * (ux p - ux b)) as E2 by (unfold turn; rewrite EY; ring).
    rewrite E1 in L1. rewrite E2 in L2. apply sign_split in L1; [|clear - Ma; qc_lra]. apply sign_split in L2; [|clear - Mc; qc_lra]. clear - L1 L2. qc_lra.
  - destruct (min_coord P NE) as (i & Hi & M). pose proof (hull_half_lo P p (V2 0 1) (uy (pt P i)) HP) as X. unfold v2dot in X. cbn [ux uy] in X.
    specialize (K i Hi). unfold lo in K. assert (uy (pt P i) <= ux p * 0 + uy p * 1) as Y by (apply X; intros q Hq; specialize (M q Hq); clear - M; qc_lra).
    qcb. clear - K Y. qc_lra.
Qed.
Lemma up_cross P p i : up P p i = true -> 0 < turn (pt P i) (pt P (succ_in P i)) p -> cross_at P p i = true.
Proof.
  intros U T. rewrite straddle_cross by (left; exact U). destruct (up_edge _ _ _ U) as (A & B). set (a := pt P i) in *. set (b := pt P (succ_in P i)) in *.
  assert (0 < uy b - uy a) as H by (clear - A B; qc_lra). assert (uy a - uy b <> 0) as N by (intros Z; clear - H Z; qc_lra).
  assert (turn a b p = (uy b - uy a) * (cx a b p - ux p)) as E by (unfold turn, cx; field; exact N). rewrite E in T.
  apply sign_split in T; [|apply Qclt_le_weak, H]. apply Qcltb_iff. clear - T. qc_lra.
Qed.
Lemma dn_cross P p i : dn P p i = true -> 0 < turn (pt P i) (pt P (succ_in P i)) p -> cross_at P p i = false.
Proof.
  intros U T. rewrite straddle_cross by (right; exact U). destruct (dn_edge _ _ _ U) as (A & B). set (a := pt P i) in *. set (b := pt P (succ_in P i)) in *.
  assert (0 < uy a - uy b) as H by (clear - A B; qc_lra). assert (uy a - uy b <> 0) as N by (intros Z; clear - H Z; qc_lra).
  assert (turn a b p = (uy a - uy b) * (ux p - cx a b p)) as E by (unfold turn, cx; field; exact N). rewrite E in T.
  apply sign_split in T; [|apply Qclt_le_weak, H]. destruct (Qcltb_spec (ux p) (cx a b p)); [exfalso; clear - T q; qc_lra|reflexivity].
Qed.
Lemma pip_interior_ccw P p : convex_ccw P -> left_of_all P p -> point_in_polygon P p = true.
Proof.
  intros C L. rewrite pip_count, cross_sum. set (l := seq 0 (length P)).
  assert (forall i, In i l -> (i < length P)%nat) as LT by (intros i Hi; apply in_seq in Hi; lia).
  assert (cnt (up P p) l <= 1)%nat as U1 by (apply cnt_unique; [apply seq_NoDup|]; intros; apply (up_unique P p); auto).
  pose proof (up_exists P p C L) as U0. fold l in U0.
  rewrite (cnt_ext (fun i => up P p i && cross_at P p i) (up P p)).
  - rewrite (proj2 (cnt_zero (fun i => dn P p i && cross_at P p i) l)).
    + replace (cnt (up P p) l) with 1%nat by lia. reflexivity.
    + intros i Hi. destruct (dn P p i) eqn:E; [rewrite (dn_cross P p i E (L i (LT i Hi))); reflexivity|reflexivity].
  - intros i Hi. destruct (up P p i) eqn:E; [rewrite (up_cross P p i E (L i (LT i Hi))); reflexivity|reflexivity].
Qed.
Lemma pip_interior : forall P p, (convex_ccw P /\ left_of_all P p) \/ (convex_ccw (rev P) /\ left_of_all (rev P) p) -> point_in_polygon P p = true.
Proof. intros P p [(C & L)|(C & L)]; [apply pip_interior_ccw; assumption|]. rewrite <- pip_rev. apply pip_interior_ccw; assumption. Qed.

(** ** touching polygons *)
Lemma neg_pos x : x < 0 -> 0 < - x. Proof. intros. qc_lra. Qed.
Lemma scal4 vd v1 v2 c a b fd f1 f2 : 0 <= vd -> v1 < 0 -> v2 < 0 -> 0 <= a -> 0 <= b -> 0 < fd -> 0 < f1 -> 0 < f2 -> c * vd = a * v1 + b * v2 -> c * fd = a * f1 + b * f2 -> b = 0.
Proof.
  intros V L1 L2 A B Fd F1 F2 E Q. pose proof (Qcmul_nonneg a (- v1) A ltac:(qc_lra)) as T1. pose proof (Qcmul_nonneg b (- v2) B ltac:(qc_lra)) as T2.
  destruct (Qcltb_spec 0 c) as [C|C].
  - pose proof (Qcmul_nonneg c vd (Qclt_le_weak _ _ C) V) as T3. assert (b * - v2 = 0) as W by (apply Qcle_antisym; qc_nra).
    apply Qcmult_integral in W. destruct W as [W|W]; [exact W|exfalso; qc_lra].
  - apply Qcnot_lt_le in C. exact (scal2 _ _ _ _ _ _ C Fd F1 F2 A B Q).
Qed.
Lemma scal5 vd v1 fd f1 k : 0 <= vd -> v1 < 0 -> 0 < fd -> 0 < f1 -> v1 * fd = f1 * vd + 0 * k -> False.
Proof. intros V L Fd F1 E. pose proof (Qcmul_nonneg _ _ (Qclt_le_weak _ _ F1) V) as T1. pose proof (Qcmul_pos _ _ Fd (neg_pos _ L)) as T2. qc_nra. Qed.
Lemma cone_pick_weak n1 n2 m1 m2 d v : 0 < cross2 n1 n2 -> 0 < cross2 m1 m2 -> incone n1 n2 d -> incone m1 m2 d -> d <> V2 0 0 -> 0 <= v2dot d v ->
  exists e, In e [n1; n2; m1; m2] /\ incone n1 n2 e /\ incone m1 m2 e /\ 0 <= v2dot e v.
Proof.
  intros N M CN CM NZ V.
  assert (exists e1, In e1 [n1; m1] /\ incone n1 n2 e1 /\ incone m1 m2 e1 /\ 0 <= cross2 e1 d) as (e1 & I1 & A1 & B1 & D1).
  { destruct (Qcleb_spec 0 (cross2 m1 n1)) as [L|L].
    - exists n1. split; [left; reflexivity|]. split; [exact (proj1 (self_cone _ _ N))|]. split; [apply (pick_left n1 n2 m1 m2 d); assumption|exact (proj1 CN)].
    - exists m1. split; [right; left; reflexivity|]. split; [|split; [exact (proj1 (self_cone _ _ M))|exact (proj1 CM)]]. apply (pick_left m1 m2 n1 n2 d); try assumption. apply anti_nonneg; assumption. }
  assert (exists e2, In e2 [n2; m2] /\ incone n1 n2 e2 /\ incone m1 m2 e2 /\ 0 <= cross2 d e2) as (e2 & I2 & A2 & B2 & D2).
  { destruct (Qcleb_spec 0 (cross2 n2 m2)) as [L|L].
    - exists n2. split; [left; reflexivity|]. split; [exact (proj2 (self_cone _ _ N))|]. split; [apply (pick_right n1 n2 m1 m2 d); assumption|exact (proj2 CN)].
    - exists m2. split; [right; left; reflexivity|]. split; [|split; [exact (proj2 (self_cone _ _ M))|exact (proj2 CM)]]. apply (pick_right m1 m2 n1 n2 d); try assumption. apply anti_nonneg; assumption. }
  assert (forall e, In e [n1; m1] -> In e [n1; n2; m1; m2]) as J1 by (intros e [->|[->|[]]]; cbn; auto).
  assert (forall e, In e [n2; m2] -> In e [n1; n2; m1; m2]) as J2 by (intros e [->|[->|[]]]; cbn; auto).
  destruct (Qcleb_spec 0 (v2dot e1 v)) as [L1|L1]; [exists e1; auto|]. destruct (Qcleb_spec 0 (v2dot e2 v)) as [L2|L2]; [exists e2; auto|]. exfalso.
  apply Qcnot_le_lt in L1, L2. pose proof (decompose_dot e1 e2 d v) as P.
  assert (e1 <> V2 0 0) as Z1 by (intros E; destruct I1 as [X|[X|[]]]; [rewrite <- X in E; rewrite E in N; exact (proj1 (cross0 _) N)|rewrite <- X in E; rewrite E in M; exact (proj1 (cross0 _) M)]).
  assert (e2 <> V2 0 0) as Z2 by (intros E; destruct I2 as [X|[X|[]]]; [rewrite <- X in E; rewrite E in N; exact (proj2 (cross0 _) N)|rewrite <- X in E; rewrite E in M; exact (proj2 (cross0 _) M)]).
  set (f := fun x => cross2 n1 x + cross2 x n2).
  pose proof (incone_pos n1 n2 d N CN NZ : 0 < f d) as Fd. pose proof (incone_pos n1 n2 e1 N A1 Z1 : 0 < f e1) as F1. pose proof (incone_pos n1 n2 e2 N A2 Z2 : 0 < f e2) as F2.
  assert (cross2 e1 e2 * f d = cross2 d e2 * f e1 + cross2 e1 d * f e2) as Q by (unfold f, cross2; ring).
  assert (v2dot e1 v * f d = f e1 * v2dot d v + cross2 e1 d * (ux v * (ux n1 - ux n2) + uy v * (uy n1 - uy n2))) as R by (unfold f, cross2, v2dot; ring).
  pose proof (scal4 _ _ _ _ _ _ _ _ _ V L1 L2 D2 D1 Fd F1 F2 P Q) as Z. rewrite Z in R. exact (scal5 _ _ _ _ _ V L1 Fd F1 R).
Qed.

Lemma sat_axis_weak A B d : convex_polygon A -> convex_polygon B -> d <> V2 0 0 -> separates d B A ->
  exists e, (is_axis A e \/ is_axis B e) /\ exists c, (forall b, In b B -> v2dot b e <= c) /\ (forall a, In a A -> c <= v2dot a e).
Proof.
  intros CA CB NZ (c & HB & HA).
  destruct (extreme_vertex A d (convex_nonempty A CA)) as (i & Hi & Mi). destruct (extreme_vertex B (v2neg d) (convex_nonempty B CB)) as (j & Hj & Mj).
  destruct (vertex_cone A i d CA Hi Mi) as (n1 & n2 & N1 & N2 & CN & DN & VN). destruct (vertex_cone B j (v2neg d) CB Hj Mj) as (m1 & m2 & M1 & M2 & CM & DM & VM).
  assert (forall a b, cross2 (v2neg a) (v2neg b) = cross2 a b) as NN by (intros; unfold cross2, v2neg; cbn [ux uy]; ring).
  destruct (cone_pick_weak n1 n2 (v2neg m1) (v2neg m2) d (v2sub (pt A i) (pt B j))) as (e & Ie & En & Em & Pe); try assumption.
  - rewrite NN. exact CM.
  - destruct DM as (D1 & D2). rewrite <- (v2neg_neg d). split; rewrite NN; assumption.
  - pose proof (HB (pt B j) (nth_In _ _ Hj)) as L1. pose proof (HA (pt A i) (nth_In _ _ Hi)) as L2. clear - L1 L2. unfold v2dot, v2sub in *. cbn [ux uy]. qc_lra.
  - exists e. split.
    + assert (forall P n, is_axis P n -> is_axis P (v2neg n)) as AN by (intros P n [X|X]; [right; rewrite v2neg_neg; exact X|left; exact X]).
      destruct Ie as [<-|[<-|[<-|[<-|[]]]]]; auto.
    + exists (v2dot (pt B j) e). split.
      * intros b Hb. assert (incone m1 m2 (v2neg e)) as IC.
        { destruct Em as (E1 & E2). rewrite <- (v2neg_neg e) in E1, E2. rewrite NN in E1, E2. split; assumption. }
        pose proof (VM (v2neg e) IC b Hb) as X. unfold v2neg in X. rewrite !v2dot_neg in X. clear - X. qc_lra.
      * intros a Ha. pose proof (VN e En a Ha) as X. clear - X Pe. unfold v2dot, v2sub in *. cbn [ux uy] in Pe. qc_lra.
Qed.

Lemma axis_loop_flag P1 P2 axes ax : In ax axes -> (fst (project_polygon P1 ax) = snd (project_polygon P2 ax) \/ snd (project_polygon P1 ax) = fst (project_polygon P2 ax)) ->
  forall t r, axis_loop P1 P2 t axes = Some r -> r = true.
Proof.
  assert (forall axes r, axis_loop P1 P2 true axes = Some r -> r = true) as T.
  { clear. induction axes as [|a axes IH]; intros r; cbn [axis_loop]; [intros [= <-]; reflexivity|]. destruct (negb _); [discriminate|]. apply IH. }
  induction axes as [|a axes IH]; intros I; [destruct I|]. intros E t r H. cbn [axis_loop] in H. destruct (negb _); [discriminate|]. destruct I as [I|I].
  - subst a. replace (t || _)%bool with true in H; [apply (T _ _ H)|]. symmetry. apply orb_true_iff. right. apply orb_true_iff. destruct E as [E|E]; [left|right]; qcb; exact E.
  - apply (IH I E _ _ H).
Qed.

(** a convex polygon does not lie on a line *)
Lemma not_flat_ccw P d c : convex_ccw P -> d <> V2 0 0 -> ~ (forall p, In p P -> v2dot p d = c).
Proof.
  intros (L & T) NZ F. assert (0 < length P)%nat as K0 by lia. assert (1 < length P)%nat as K1 by lia. assert (2 < length P)%nat as K2 by lia. pose proof (T 0%nat 1%nat 2%nat ltac:(lia) ltac:(lia) ltac:(lia)) as X.
  pose proof (F (pt P 0) (nth_In _ _ K0)) as F0. pose proof (F (pt P 1) (nth_In _ _ K1)) as F1. pose proof (F (pt P 2) (nth_In _ _ K2)) as F2.
  set (a := pt P 0) in *. set (b := pt P 1) in *. set (e := pt P 2) in *. clearbody a b e. clear - X NZ F0 F1 F2.
  assert (turn a b e * ux d = 0) as E1.
  { transitivity ((uy e - uy a) * (v2dot b d - v2dot a d) - (uy b - uy a) * (v2dot e d - v2dot a d)); [unfold turn, v2dot; ring|rewrite F0, F1, F2; ring]. }
  assert (turn a b e * uy d = 0) as E2.
  { transitivity ((ux b - ux a) * (v2dot e d - v2dot a d) - (ux e - ux a) * (v2dot b d - v2dot a d)); [unfold turn, v2dot; ring|rewrite F0, F1, F2; ring]. }
  apply NZ, v2_eq; cbn [ux uy]; [exact (mul_pos_zero _ _ X E1)|exact (mul_pos_zero _ _ X E2)].
Qed.
Lemma not_flat P d c : convex_polygon P -> d <> V2 0 0 -> ~ (forall p, In p P -> v2dot p d = c).
Proof. intros [C|C] NZ F; [exact (not_flat_ccw P d c C NZ F)|]. apply (not_flat_ccw (rev P) d c C NZ). intros p Hp. apply F. apply in_rev. exact Hp. Qed.
Lemma not_contained P1 P2 d : convex_polygon P1 -> convex_polygon P2 -> d <> V2 0 0 -> separates d P1 P2 -> forallb (point_in_polygon P2) P1 = false.
Proof.
  intros C1 C2 NZ (c & H1 & H2). destruct (forallb _ _) eqn:E; [exfalso|reflexivity]. rewrite forallb_forall in E.
  apply (not_flat P1 d c C1 NZ). intros p Hp. apply Qcle_antisym; [apply H1, Hp|]. apply (hull_half_lo P2); [|exact H2]. apply pip_hull; [exact C2|apply E, Hp].
Qed.
Lemma separates_neg d P Q : separates d P Q -> separates (v2neg d) Q P.
Proof. intros (c & A & B). exists (- c). unfold v2neg. split; intros p Hp; rewrite v2dot_neg; [specialize (B p Hp)|specialize (A p Hp)]; qc_lra. Qed.
Lemma neg_nonzero d : d <> V2 0 0 -> v2neg d <> V2 0 0.
Proof. intros N E. apply N. apply v2_inj in E. destruct E. apply v2_eq; cbn [ux uy]; qc_lra. Qed.

Lemma touch_complete A B d : convex_polygon A -> convex_polygon B -> moderate A -> moderate B -> hulls_meet A B -> d <> V2 0 0 -> separates d A B -> polygon_relationship A B = TOUCH.
Proof.
  intros CA CB MA MB HM NZ S. pose proof (separates_neg _ _ _ S) as SN. pose proof (neg_nonzero _ NZ) as NN.
  destruct (sat_axis_weak A B (v2neg d) CA CB NN SN) as (e & IA & c & HB & HA).
  assert (exists ax, In ax (edge_axes A ++ edge_axes B) /\ (ax = e \/ ax = v2neg e)) as (ax & Iax & E).
  { destruct IA as [[X|X]|[X|X]]; [exists e|exists (v2neg e)|exists e|exists (v2neg e)]; (split; [apply in_or_app; auto|auto]). }
  assert (forall Q, moderate Q -> forall p, In p Q -> - DBL_MAX <= v2dot p ax /\ v2dot p ax <= DBL_MAX) as R.
  { intros Q MQ p Hp. apply in_app_or in Iax. destruct Iax as [I|I]; apply edge_axes_In in I; destruct I as (i & Hi & ->); eapply moderate_proj; eassumption. }
  destruct (project_attained A ax (convex_nonempty A CA) (R A MA)) as ((pa & Ipa & Ea) & (qa & Iqa & Fa)).
  destruct (project_attained B ax (convex_nonempty B CB) (R B MB)) as ((pb & Ipb & Eb) & (qb & Iqb & Fb)).
  pose proof (project_bounds A ax) as (A1 & A2). pose proof (project_bounds B ax) as (B1 & B2). destruct HM as (m & MHA & MHB).
  assert (fst (project_polygon A ax) = snd (project_polygon B ax) \/ snd (project_polygon A ax) = fst (project_polygon B ax)) as T.
  { pose proof (hull_half_lo A m ax _ MHA A1) as X1. pose proof (hull_half A m ax _ MHA A2) as X2. pose proof (hull_half_lo B m ax _ MHB B1) as X3. pose proof (hull_half B m ax _ MHB B2) as X4.
    destruct E as [->| ->].
    - left. rewrite Ea in *. rewrite Fb in *. pose proof (HA pa Ipa) as Y1. pose proof (HB qb Iqb) as Y2. apply Qcle_antisym; [clear - X1 X4; qc_lra|clear - Y1 Y2; qc_lra].
    - right. rewrite Fa in *. rewrite Eb in *. pose proof (HA qa Iqa) as Y1. pose proof (HB pb Ipb) as Y2. unfold v2neg in *. rewrite !v2dot_neg in *. apply Qcle_antisym; [clear - Y1 Y2; qc_lra|clear - X2 X3; qc_lra]. }
  unfold polygon_relationship. destruct (axis_loop A B false (edge_axes A ++ edge_axes B)) as [t|] eqn:EL.
  - rewrite (axis_loop_flag A B _ ax Iax T _ _ EL). rewrite (not_contained A B d CA CB NZ S), (not_contained B A _ CB CA NN SN). reflexivity.
  - exfalso. apply (distance_sound A B); [unfold polygon_relationship; rewrite EL; reflexivity|exists m; split; assumption].
Qed.

Lemma convex_no_repeat P : convex_polygon P -> no_repeat P.
Proof.
  assert (forall P, convex_ccw P -> no_repeat P) as G.
  { clear P. intros P C i Hi E. pose proof (ccw_corner P (succ_in P i) C (succ_lt P i Hi)) as X.
    assert (pred_in P (succ_in P i) = i) as PS by (unfold pred_in, succ_in; destruct (Nat.eqb_spec (S i) (length P)); lia). rewrite PS, E in X.
    unfold turn in X. clear - X. qc_lra. }
  intros [C|C]; [apply G, C|]. intros i Hi E.
  pose proof (succ_lt P i Hi) as Hs. apply (G _ C (length P - 1 - succ_in P i)%nat); [rewrite rev_length; lia|].
  assert (succ_in (rev P) (length P - 1 - succ_in P i) = length P - 1 - i)%nat as ES.
  { unfold succ_in in *. rewrite rev_length. destruct (Nat.eqb_spec (S i) (length P)); repeat match goal with |- context [Nat.eqb ?a ?b] => destruct (Nat.eqb_spec a b) end; lia. }
  rewrite ES, !pt_rev by lia. replace (length P - 1 - (length P - 1 - i))%nat with i by lia. replace (length P - 1 - (length P - 1 - succ_in P i))%nat with (succ_in P i) by lia. symmetry. exact E.
Qed.

(** the complete classification *)
Lemma relationship_convex : forall A B, convex_polygon A -> convex_polygon B -> moderate A -> moderate B ->
  (polygon_relationship A B = DISTANCE <-> ~ hulls_meet A B) /\
  (polygon_relationship A B = TOUCH <-> hulls_meet A B /\ exists d, d <> V2 0 0 /\ separates d A B) /\
  (polygon_relationship A B = INTERSECT <-> hulls_meet A B /\ forall d, d <> V2 0 0 -> ~ separates d A B).
Proof.
  intros A B CA CB MA MB. pose proof (convex_no_repeat A CA) as NA. pose proof (convex_no_repeat B CB) as NB.
  assert (polygon_relationship A B <> DISTANCE -> hulls_meet A B) as DM.
  { intros N. destruct (separation A B) as [H|(d & H)]; [exact H|]. exfalso. apply N. apply distance_complete; try assumption. intros (m & M1 & M2).
    destruct (extreme_vertex A d (convex_nonempty A CA)) as (i & Hi & Mi). destruct (extreme_vertex B (v2neg d) (convex_nonempty B CB)) as (j & Hj & Mj).
    pose proof (hull_half_lo A m d (v2dot (pt A i) d) M1 Mi) as X1. pose proof (hull_half B m d (v2dot (pt B j) d) M2) as X2.
    specialize (H (pt A i) (pt B j) (nth_In _ _ Hi) (nth_In _ _ Hj)). assert (v2dot m d <= v2dot (pt B j) d) as X3.
    { apply X2. intros q Hq. specialize (Mj q Hq). unfold v2neg in Mj. rewrite !v2dot_neg in Mj. clear - Mj. qc_lra. }
    clear - H X1 X3. qc_lra. }
  split; [|split].
  - split; [apply distance_sound|]. apply distance_complete; assumption.
  - split.
    + intros T. split; [apply DM; rewrite T; discriminate|]. apply touch_sound; assumption.
    + intros (M & d & NZ & S). exact (touch_complete A B d CA CB MA MB M NZ S).
  - split.
    + intros I. split; [apply DM; rewrite I; discriminate|]. intros d NZ S. assert (hulls_meet A B) as M by (apply DM; rewrite I; discriminate).
      rewrite (touch_complete A B d CA CB MA MB M NZ S) in I. discriminate.
    + intros (M & NS). destruct (polygon_relationship A B) eqn:E; [reflexivity| |].
      * destruct (touch_sound A B NA NB E) as (d & NZ & S). exfalso. exact (NS d NZ S).
      * exfalso. exact (distance_sound A B E M).
Qed.
