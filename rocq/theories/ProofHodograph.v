(** get_derivative: the curve of derivatives. Also the continuity of curves. *)
From Coq Require Import List ZArith QArith Qcanon Lia Bool.
From Verif Require Import Base BaseFacts ModelVec ModelAabb ModelNurbs ModelDerivative SpecAabb SpecNurbs SpecCurve SpecDerivative LoopFacts
  ProofBspline ProofNurbs ProofInsertCurve ProofInsertKnot ProofCurve ProofNurbsMisc ProofNurbsTop ProofMinimize ProofDecompose ProofSmooth ProofDerBasis ProofDerivative ProofDerivativeTop.
Import ListNotations.
Open Scope Qc_scope.

Lemma bsp_ext U V s p : forall i u, (forall j, (i <= j <= i + p + 1)%nat -> U j = V j) -> bsp U s p i u = bsp V s p i u.
Proof.
  induction p as [|p IH]; intros i u H; cbn [bsp]; [reflexivity|]. rewrite !IH by (intros; apply H; lia). rewrite !H by lia. reflexivity.
Qed.

(** summation by parts *)
Lemma abel (A f : nat -> Qc) n : qsum (fun i => (A i - A (S i)) * f i) (S n) = A 0%nat * f 0%nat - A (S n) * f n + qsum (fun i => A (S i) * (f (S i) - f i)) n.
Proof.
  induction n as [|n IH]; [cbn [qsum]; ring|]. cbn [qsum] in IH |- *. rewrite IH. ring.
Qed.

(** control points of the derivative of a polynomial curve *)
Definition hodo (U : list Qc) (p : nat) (f : nat -> Qc) (i : nat) : Qc := Qc_of_nat p * (f (S i) - f i) / (knot U (i + p + 1) - knot U (i + 1)).

Lemma hodo_sum U n q s f u : (S q <= s)%nat -> (s <= n)%nat ->
  dsum U n (S q) 1 s f u = qsum (fun i => bsp (knot U) s q (S i) u * hodo U (S q) f i) n.
Proof.
  intros Hs Hn. unfold dsum. set (A := fun i => bsp (knot U) s q i u / (knot U (i + S q) - knot U i)).
  rewrite (qsum_ext _ (fun i => Qc_of_nat (S q) * ((A i - A (S i)) * f i))).
  2:{ intros i _. cbn [bspd]. unfold A. replace (i + 1)%nat with (S i) by lia. replace (i + S q + 1)%nat with (S i + S q)%nat by lia. ring. }
  rewrite qsum_scale, abel. assert (A 0%nat = 0) as ->. { unfold A. rewrite bsp_left by lia. unfold Qcdiv. ring. }
  assert (A (S n) = 0) as ->. { unfold A. rewrite bsp_right by lia. unfold Qcdiv. ring. }
  replace (0 * f 0%nat - 0 * f n) with 0 by ring. rewrite Qcplus_0_l, <- qsum_scale. apply qsum_ext. intros i _. unfold A, hodo.
  replace (i + S q + 1)%nat with (S i + S q)%nat by lia. replace (i + 1)%nat with (S i) by lia. unfold Qcdiv. ring.
Qed.

(** ** the knots of the derivative *)
Definition inner_knots (U : list Qc) : list Qc := firstn (length U - 2) (skipn 1 U).
Lemma inner_length U : length (inner_knots U) = (length U - 2)%nat.
Proof. unfold inner_knots. rewrite firstn_length, skipn_length. lia. Qed.
Lemma inner_knot U i : (i < length U - 2)%nat -> knot (inner_knots U) i = knot U (S i).
Proof.
  intros H. rewrite knot_nth by (rewrite inner_length; exact H). unfold inner_knots. rewrite nth_firstn_lt by exact H. rewrite nth_skipn_add. rewrite <- knot_nth by lia. reflexivity.
Qed.
Lemma inner_valid n q U : valid_knots (S n) (S q) U -> valid_knots n q (inner_knots U).
Proof.
  intros (Hp & HL & So & N). pose proof (sorted_mono _ So) as M. split; [lia|]. split; [rewrite inner_length; lia|]. split.
  - intros i j Hij Hj. rewrite inner_length in Hj. rewrite <- !knot_nth by (rewrite inner_length; lia). rewrite !inner_knot by lia. apply M. lia.
  - rewrite !inner_knot by lia. replace (S (n + 1)) with (S n + 1)%nat by lia. exact N.
Qed.
Lemma inner_domain n q U t : valid_knots (S n) (S q) U -> in_domain n q (inner_knots U) t <-> in_domain (S n) (S q) U t.
Proof. intros (Hp & HL & So & N). unfold in_domain. rewrite !inner_knot by lia. replace (S (n + 1)) with (S n + 1)%nat by lia. reflexivity. Qed.

(** ** the control points *)
Definition hodo_point (U : list Qc) (p : nat) (P : list vec4) (i : nat) : vec4 :=
  V4 (hodo U p (coord wx P) i) (hodo U p (coord wy P) i) (hodo U p (coord wz P) i) 1.
Lemma der_point_unit n p U P i : valid_knots n p U -> length P = S n -> unit_weights P -> (i < n)%nat -> knot U (i + 1) < knot U (i + p + 1) ->
  der_point p U P i = Ok (hodo_point U p P i).
Proof.
  intros (Hp & HL & So & N) HP W Hi L. unfold der_point. rewrite (get_ok P i d4), (get_ok P (i + 1) d4) by lia. cbn [bind].
  rewrite (get_ok U (i + p + 1) 0), (get_ok U (i + 1) 0) by lia. cbn [bind]. rewrite <- !knot_nth by lia.
  rewrite !(W (nth _ P d4)) by (apply nth_In; lia).
  assert (forall a b, b <> 0 -> qdiv a b = Ok (a / b)) as Q. { intros a b H. unfold qdiv. destruct (Qceqb_spec b 0); [contradiction|reflexivity]. }
  assert (knot U (i + p + 1) - knot U (i + 1) <> 0) as NZ by (apply diff_nz; exact L).
  set (a := knot U (i + p + 1)) in *. set (b := knot U (i + 1)) in *.
  assert ((a - b) * (1 + 1) <> 0) as NZ2. { intros E. apply NZ. replace (a - b) with ((a - b) * (1 + 1) * / (1 + 1)) by (field; discriminate). rewrite E. ring. }
  rewrite (Q (1 * 1) (1 + 1)) by discriminate. cbn [bind]. rewrite !(Q _ ((a - b) * (1 + 1))) by exact NZ2. cbn [bind].
  rewrite !(Q _ (1 * 1 / (1 + 1))) by discriminate. cbn [bind]. f_equal. unfold hodo_point, hodo, coord. fold a b. rewrite Nat.add_1_r.
  f_equal; field; repeat split; try assumption; discriminate.
Qed.

Lemma spread n p U i : valid_knots n p U -> (1 <= p)%nat -> knot U p < knot U (p + 1) -> inner_multiplicity n p U p -> (i < n)%nat -> knot U (i + 1) < knot U (i + p + 1).
Proof.
  intros (Hpn & HL & So & N) Hp Hst IM Hi. pose proof (sorted_mono _ So) as M.
  destruct (Qclt_le_dec (knot U (i + 1)) (knot U (i + p + 1))) as [|L]; [assumption|exfalso].
  assert (knot U (i + 1) <= knot U n) by (apply M; lia). assert (knot U (p + 1) <= knot U (i + p + 1)) by (apply M; lia).
  assert (knot U (i + 1) <= knot U (i + p + 1)) by (apply M; lia).
  specialize (IM (knot U (i + 1)) ltac:(qc_lra) ltac:(qc_lra)).
  assert (p + 1 <= multiplicity U (knot U (i + 1)))%nat; [|lia].
  apply (mult_range U _ (i + 1)). intros j Hj. split; [lia|]. rewrite <- knot_nth by lia.
  assert (knot U (i + 1) <= knot U j) by (apply M; lia). assert (knot U j <= knot U (i + p + 1)) by (apply M; lia). apply Qcle_antisym; qc_lra.
Qed.

Lemma get_derivative_point c n : good_curve c n -> (1 <= nc_degree c)%nat -> unit_weights (nc_cps c) ->
  knot (nc_knots c) (nc_degree c) < knot (nc_knots c) (nc_degree c + 1) -> inner_multiplicity n (nc_degree c) (nc_knots c) (nc_degree c) ->
  forall e, exists d, nc_get_derivative_into c e = Ok d /\ good_curve d (n - 1) /\ nc_degree d = (nc_degree c - 1)%nat /\ unit_weights (nc_cps d) /\ interval_current d /\
    nc_periodic d = nc_periodic e /\ nc_aabb d = nc_aabb e /\
    (forall t, in_curve d (n - 1) t <-> in_curve c n t) /\
    forall t, in_curve c n t -> evaluate d t = Ok (point_k c n 1 t).
Proof.
  intros (HP & V & H8) Hp W Hst IM e. unfold nc_get_derivative_into, get_nurbs_derivative.
  destruct (nc_degree c) as [|q] eqn:Eq; [lia|]. pose proof V as (Hpn & HL & So & N). destruct n as [|n]; [lia|].
  destruct (nc_cps c) as [|p0 P'] eqn:EP; [discriminate HP|]. rewrite <- EP in *. clear EP p0 P'.
  destruct (Nat.ltb_spec (length (nc_knots c)) 2); [lia|]. rewrite HP. replace (S (S n) - 1)%nat with (S n) by lia.
  rewrite (mapM_map _ (hodo_point (nc_knots c) (S q) (nc_cps c))).
  2:{ intros i Hi. apply in_seq in Hi. apply (der_point_unit (S n)); try assumption; [lia|]. apply (spread (S n)); try assumption; lia. }
  cbn [bind]. fold (inner_knots (nc_knots c)). set (P := map (hodo_point (nc_knots c) (S q) (nc_cps c)) (seq 0 (S n))).
  pose proof (inner_valid n q _ V) as V'. pose proof V' as (Hpn' & HL' & So' & N').
  rewrite update_interval_sorted; cbn [nc_knots]; [|exact So'|intros E; rewrite E in HL'; cbn in HL'; lia].
  match goal with |- exists d, Ok ?x = Ok d /\ _ => set (d := x) end. exists d. split; [reflexivity|].
  assert (length (nc_cps d) = S n) as LP by (unfold d, P; cbn; rewrite map_length, seq_length; reflexivity).
  assert (unit_weights (nc_cps d)) as W'. { intros x Hx. unfold d, P in Hx. cbn [nc_cps nc_set_interval] in Hx. apply in_map_iff in Hx. destruct Hx as (i & <- & _). reflexivity. }
  replace (S n - 1)%nat with n by lia.
  assert (good_curve d n) as G' by (split; [exact LP|]; split; [exact V'|cbn; lia]).
  split; [exact G'|]. split; [cbn; lia|]. split; [exact W'|]. split; [reflexivity|]. split; [reflexivity|]. split; [reflexivity|]. split.
  { intros t. unfold in_curve. rewrite Eq. apply inner_domain. exact V. }
  intros t D. assert (in_curve d n t) as D' by (apply inner_domain; [exact V|]; unfold in_curve in D; rewrite Eq in D; exact D).
  rewrite (evaluate_phi d n t G' W' D'). f_equal.
  unfold in_curve in D. rewrite Eq in D. destruct (sp_ok _ _ _ _ V D) as (_ & Hs & I). pose proof I as (A & B & C).
  set (s := sp (S n) (S q) (nc_knots c) t) in *.
  assert (is_span (knot (inner_knots (nc_knots c))) n (s - 1) t) as I'.
  { split; [lia|]. rewrite inner_knot by lia. replace (S (s - 1)) with s by lia. split; [exact B|].
    destruct C as [C|[C1 C2]]; [left; rewrite inner_knot by lia; exact C|]. right. split; [lia|]. rewrite inner_knot by lia. exact C2. }
  unfold point_k. rewrite Eq. change (nc_knots d) with (inner_knots (nc_knots c)). change (nc_degree d) with q.
  rewrite !(phi_span (inner_knots (nc_knots c)) n q 0 _ t _ V' D' I'). rewrite !(phi_span (nc_knots c) (S n) (S q) 1 _ t _ V D I).
  rewrite !(hodo_sum (nc_knots c) (S n) q s) by lia.
  assert (forall g h, (forall i, (i < S n)%nat -> g i = h i) -> dsum (inner_knots (nc_knots c)) n q 0 (s - 1) g t = qsum (fun i => bsp (knot (nc_knots c)) s q (S i) t * h i) (S n)) as K.
  { intros g h E. unfold dsum. apply qsum_ext. intros i Hi. rewrite E by exact Hi. f_equal. cbn [bspd].
    pose proof (bsp_shift (knot (nc_knots c)) 1 (s - 1) q i t) as B1. replace (1 + (s - 1))%nat with s in B1 by lia. change (1 + i)%nat with (S i) in B1. rewrite B1.
    apply bsp_ext. intros j Hj. rewrite inner_knot by lia. reflexivity. }
  assert (forall cf i, (i < S n)%nat -> coord cf (nc_cps d) i = cf (hodo_point (nc_knots c) (S q) (nc_cps c) i)) as KC.
  { intros cf i Hi. unfold coord, d, P. cbn [nc_cps nc_set_interval]. rewrite (nth_indep _ d4 (hodo_point (nc_knots c) (S q) (nc_cps c) 0)) by (rewrite map_length, seq_length; exact Hi).
    rewrite map_nth, seq_nth by exact Hi. reflexivity. }
  f_equal; apply K; intros i Hi; rewrite KC by exact Hi; reflexivity.
Qed.

Lemma get_derivative_top c n : good_curve c n -> (1 <= nc_degree c)%nat -> unit_weights (nc_cps c) ->
  knot (nc_knots c) (nc_degree c) < knot (nc_knots c) (nc_degree c + 1) -> inner_multiplicity n (nc_degree c) (nc_knots c) (nc_degree c) ->
  exists d, nc_get_derivative c = Ok d /\ good_curve d (n - 1) /\ nc_degree d = (nc_degree c - 1)%nat /\ unit_weights (nc_cps d) /\ interval_current d /\
    (forall t, in_curve d (n - 1) t <-> in_curve c n t) /\
    forall t, in_curve c n t -> exists v, evaluate d t = Ok v /\
      has_velocity (evaluate c) (fun t' => in_curve c n t' /\ t <= t') t v /\
      (t <= knot (nc_knots c) (nc_degree c) \/ knot (nc_knots c) (n + 1) <= t \/ (multiplicity (nc_knots c) t < nc_degree c)%nat ->
       has_velocity (evaluate c) (in_curve c n) t v) /\
      ((nc_degree c <= 3)%nat -> nc_derivative c t = Ok v).
Proof.
  intros G Hp W Hst IM. destruct (get_derivative_point c n G Hp W Hst IM nc_default) as (d & E & A1 & A2 & A3 & A4 & _ & _ & A5 & A6).
  exists d. split; [exact E|]. split; [exact A1|]. split; [exact A2|]. split; [exact A3|]. split; [exact A4|]. split; [exact A5|].
  intros t D. exists (point_k c n 1 t). split; [apply A6; exact D|].
  destruct (velocity_k c n 0 t (evaluate c) G D) as [X Y]; [intros; apply evaluate_phi; assumption|]. split; [exact X|]. split.
  - intros [H|[H|H]]; apply Y; auto. right. right. lia.
  - intros H3. apply derivative_point; [assumption|lia|assumption].
Qed.
