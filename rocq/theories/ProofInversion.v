(** Proofs about point inversion. *)
From Coq Require Import List ZArith QArith Qcanon Bool Lia Lqa Field.
From Verif Require Import Base BaseFacts LoopFacts ModelVec ModelAabb ModelNurbs ModelNumeric ModelDerivative ModelPolygon ModelSurface ModelSurface2 ModelInversion
  SpecNurbs SpecCurve SpecJoin SpecInversion ProofBspline ProofNurbs ProofNurbsMisc ProofNurbsTop ProofMinimize ProofDecompose ProofPeriodic ProofDerivative ProofSurfaceDiff ProofLength.
Import ListNotations.
Open Scope Qc_scope.

(** ** solve2x2 *)
Lemma DBL_EPS_pos : 0 < DBL_EPS. Proof. reflexivity. Qed.
Lemma big_nz x : ~ Qcabs x < DBL_EPS -> x <> 0.
Proof. intros H E. apply H. rewrite E. reflexivity. Qed.
Lemma solve_top m y0 y1 :
  (Qcabs (m00 m * m11 m - m01 m * m10 m) < DBL_EPS -> solve2x2 m y0 y1 = None) /\
  (~ Qcabs (m00 m * m11 m - m01 m * m10 m) < DBL_EPS ->
   exists a b, solve2x2 m y0 y1 = Some (a, b) /\
     forall a' b', (m00 m * a' + m01 m * b' = y0 /\ m10 m * a' + m11 m * b' = y1) <-> (a' = a /\ b' = b)).
Proof.
  unfold solve2x2. set (det := m00 m * m11 m - m01 m * m10 m). split; intros H.
  - destruct (Qcltb_spec (Qcabs det) DBL_EPS); [reflexivity|contradiction].
  - destruct (Qcltb_spec (Qcabs det) DBL_EPS); [contradiction|]. eexists _, _. split; [reflexivity|].
    assert (det <> 0) as N by (apply big_nz; assumption). intros a' b'. split.
    + intros [A B]. subst y0 y1. unfold det in *. split; field; exact N.
    + intros [-> ->]. unfold det in *. split; field; exact N.
Qed.

(** ** curves that start at the point *)
Lemma v3minus_self p : v3minus p p = V3 0 0 0.
Proof. unfold v3minus. f_equal; ring. Qed.
Lemma v3dot_0_r v : v3dot v (V3 0 0 0) = 0.
Proof. unfold v3dot. cbn [vx vy vz]. ring. Qed.
Lemma len_le_0 len v tol l : len v = Some l -> 0 <= tol -> len_le len 0 v tol = true.
Proof. intros E H. unfold len_le. rewrite E. apply Qcleb_iff. replace (0 * l) with 0 by ring. exact H. Qed.

Lemma curve_stays len c P u0 tol1 tol2 k d1 d2 : len (V3 0 0 0) = Some 0 -> 0 <= tol1 ->
  evaluate c u0 = Ok P -> nc_derivative c u0 = Ok d1 -> nc_second_derivative_fdm c u0 = Ok d2 ->
  invert_curve len c P u0 tol1 tol2 k = Ok u0.
Proof.
  intros L0 T E0 E1 E2. unfold invert_curve. rewrite E0, E1, E2. cbn [bind]. destruct k as [|k]; [reflexivity|]. cbn [invert_curve_loop].
  rewrite v3minus_self, !v3dot_0_r. destruct (Qcltb_spec (Qcabs (0 + v3dot d1 d1)) DBL_EPS) as [S|S]; [reflexivity|].
  replace (u0 - 0 / (0 + v3dot d1 d1)) with u0 by (unfold Qcdiv; ring). rewrite E0. cbn [bind].
  rewrite v3minus_self. assert (len_le len 1 (V3 0 0 0) tol1 = true) as ->.
  { unfold len_le. rewrite L0. apply Qcleb_iff. replace (1 * 0) with 0 by ring. exact T. }
  destruct (len_le len (Qcabs (u0 - u0)) d1 tol1); reflexivity.
Qed.

Lemma curve_stays_top len c n P u0 tol1 tol2 k : len (V3 0 0 0) = Some 0 -> 0 <= tol1 ->
  good_curve c n -> (1 <= nc_degree c <= 3)%nat -> unit_weights (nc_cps c) ->
  in_curve c n (u0 - fdm_h) -> in_curve c n (u0 + fdm_h) -> evaluate c u0 = Ok P ->
  invert_curve len c P u0 tol1 tol2 k = Ok u0.
Proof.
  intros L0 T G D W I1 I2 E0. assert (in_curve c n u0) as I0.
  { pose proof fdm_h_pos as H. set (h := fdm_h) in *. clearbody h. destruct I1, I2. split; qc_lra. }
  destruct (derivative_velocity c n u0 G D W I0) as (d1 & E1 & _).
  assert (forall t, in_curve c n t -> exists p, evaluate c t = Ok p) as EV.
  { intros t I. destruct (derivative_velocity c n t G D W I) as (_ & _ & (p & E & _)). eauto. }
  destruct (EV _ I1) as (p1 & P1). destruct (EV _ I2) as (p2 & P2).
  eapply curve_stays; try eassumption. unfold nc_second_derivative_fdm. rewrite P1. cbn [bind]. rewrite P2. reflexivity.
Qed.

(** ** straight segments, at all parameters *)
Definition kn01 : list Qc := [0; 0; 1; 1].
Ltac step := cbv - [Qcplus Qcminus Qcmult Qcdiv Q2Qc Qcopp qdiv]; change (Q2Qc (QArith_base.Qmake 1 1)) with (1:Qc); change (Q2Qc (QArith_base.Qmake 0 1)) with (0:Qc).
Lemma one_nz : (1:Qc) <> 0. Proof. discriminate. Qed.
Lemma q1 (a b : Qc) : b = 1 -> qdiv a b = Ok a.
Proof. intros ->. rewrite qdiv_ok by exact one_nz. f_equal. field; exact one_nz. Qed.
Lemma basis_line u : basis_funs 1 u 1 kn01 zeros = Ok (1 - u :: u :: repeat 0 7).
Proof. step. rewrite q1 by ring. step. do 2 f_equal; [|f_equal]; ring. Qed.
Lemma ders_line u : ders_basis_funs 1 u 1 1 kn01 = Ok [V4 (1 - u) u 0 0; V4 (- (1)) 1 0 0].
Proof. step. repeat (rewrite q1 by ring; step).
  match goal with |- Ok [V4 ?a ?b _ _; V4 ?c ?d _ _] = _ => replace a with (1 - u) by ring; replace b with u by ring; replace c with (- (1)) by ring; replace d with 1 by ring end. reflexivity.
Qed.

Lemma segment_made (a b : vec3) : exists c, nc_make3 [a; b] 1 false = Ok c /\ nc_knots c = kn01 /\ nc_cps c = [v4of3 a; v4of3 b] /\ nc_degree c = 1%nat /\ nc_periodic c = false.
Proof.
  destruct (make_unit [a; b] 1 ltac:(cbn; lia)) as (c & n & U & E & L & G & A1 & A2 & A3 & A4 & A5 & A6 & A7).
  cbn in L. injection L as <-. exists c. split; [exact E|]. split; [|split; [exact A1|split; assumption]]. rewrite A3. cbn in G. injection G as <-.
  unfold kn01. repeat (f_equal; try reflexivity); apply Qc_is_canon; reflexivity.
Qed.
Lemma v4of3_eq p : v4of3 p = V4 (vx p) (vy p) (vz p) 1. Proof. reflexivity. Qed.

Lemma segment_eval a b c u : nc_knots c = kn01 -> nc_cps c = [v4of3 a; v4of3 b] -> nc_degree c = 1%nat -> evaluate c u = Ok (lerp3 a b u).
Proof.
  intros K C D. unfold evaluate. rewrite C, K, D. cbn [length]. unfold curve_point.
  change (find_span 1 1 u kn01) with (@Ok nat 1%nat). cbn [bind]. rewrite basis_line. cbn [bind].
  assert (for_up (1 + 1) 0 (curve_point_step 1 1 [v4of3 a; v4of3 b] (1 - u :: u :: repeat 0 7)) (0, 0, 0, 0) =
    Ok (1, (1 - u) * vx a + u * vx b, (1 - u) * vy a + u * vy b, (1 - u) * vz a + u * vz b)) as ->.
  { rewrite !v4of3_eq. destruct a as [a1 a2 a3], b as [b1 b2 b3]. step. f_equal. f_equal; [f_equal; [f_equal|]|]; ring. }
  cbn [bind]. rewrite !q1 by reflexivity. reflexivity.
Qed.
Lemma segment_deriv a b c u : nc_knots c = kn01 -> nc_cps c = [v4of3 a; v4of3 b] -> nc_degree c = 1%nat -> nc_periodic c = false -> nc_derivative c u = Ok (v3sub b a).
Proof.
  intros K C D P. unfold nc_derivative. rewrite C, K, D, P. cbn [length]. unfold curve_derivs_alg1.
  change (find_span 1 1 u kn01) with (@Ok nat 1%nat). cbn [bind Nat.min]. rewrite ders_line. rewrite !v4of3_eq. destruct a as [a1 a2 a3], b as [b1 b2 b3]. step. unfold v3sub. cbn [vx vy vz]. f_equal. f_equal; ring.
Qed.
Lemma fdm_2h_nz : fdm_2h <> 0. Proof. discriminate. Qed.
Lemma affine_fdm a b u : v3scale_div (v3minus (lerp3 a b (u + fdm_h)) (lerp3 a b (u - fdm_h))) fdm_2h = v3sub b a.
Proof.
  pose proof fdm_2h_nz as N. rewrite fdm_double in *. set (h := fdm_h) in *. clearbody h. assert (h <> 0) as Hh by (intros E; apply N; rewrite E; ring).
  unfold v3scale_div, v3minus, lerp3, v3sub. cbn [vx vy vz]. f_equal; field; (split; [exact Hh|discriminate]).
Qed.
Lemma segment_second a b c u : nc_knots c = kn01 -> nc_cps c = [v4of3 a; v4of3 b] -> nc_degree c = 1%nat -> nc_second_derivative_fdm c u = Ok (v3sub b a).
Proof. intros K C D. unfold nc_second_derivative_fdm. rewrite !(segment_eval a b c) by assumption. cbn [bind]. rewrite affine_fdm. reflexivity. Qed.

(** inverting the end of a segment, from its start, gives the start *)
Lemma segment_stuck len a b tol1 tol2 k : exists c, nc_make3 [a; b] 1 false = Ok c /\ evaluate c 0 = Ok a /\ evaluate c 1 = Ok b /\ nc_interval c = (0, 1) /\
  invert_curve len c b 0 tol1 tol2 k = Ok 0.
Proof.
  destruct (segment_made a b) as (c & E & K & C & D & P). exists c. split; [exact E|].
  split; [rewrite (segment_eval a b c) by assumption; f_equal; unfold lerp3; destruct a as [a1 a2 a3]; cbn [vx vy vz]; f_equal; ring|].
  split; [rewrite (segment_eval a b c) by assumption; f_equal; unfold lerp3; destruct b as [b1 b2 b3]; cbn [vx vy vz]; f_equal; ring|].
  split; [destruct (make_unit [a; b] 1 ltac:(cbn; lia)) as (c' & n & U & E' & _ & _ & _ & _ & _ & _ & I & _); rewrite E in E'; injection E' as <-; exact I|].
  unfold invert_curve. rewrite (segment_eval a b c), (segment_deriv a b c), (segment_second a b c) by assumption. cbn [bind]. destruct k as [|k]; [reflexivity|]. cbn [invert_curve_loop].
  match goal with |- context [Qcabs ?x <? _] => replace x with 0 end; [reflexivity|].
  unfold v3dot, v3minus, lerp3, v3sub. cbn [vx vy vz]. ring.
Qed.

(** from the end of the segment 0..1 towards a point beyond it the search leaves the segment *)
Lemma loop_beyond len c tol1 tol2 : nc_knots c = kn01 -> nc_cps c = [v4of3 (V3 0 0 0); v4of3 (V3 1 0 0)] -> nc_degree c = 1%nat -> nc_periodic c = false ->
  forall k u, qc 3 2 < u -> exists r, invert_curve_loop len k c (V3 (qc 3 2) 0 0) tol1 tol2 u (V3 u 0 0) (V3 1 0 0) (V3 1 0 0) = Ok r /\ qc 3 2 < r.
Proof.
  intros K C D P. set (P0 := V3 (qc 3 2) 0 0).
  assert (forall u, evaluate c u = Ok (V3 u 0 0)) as EV. { intros u. rewrite (segment_eval _ _ c u K C D). f_equal; unfold lerp3; cbn [vx vy vz]; f_equal; ring. }
  assert (forall u, nc_derivative c u = Ok (V3 1 0 0)) as DV. { intros u. rewrite (segment_deriv _ _ c u K C D P). f_equal; unfold v3sub; cbn [vx vy vz]; f_equal; ring. }
  assert (forall u, nc_second_derivative_fdm c u = Ok (V3 1 0 0)) as SV. { intros u. rewrite (segment_second _ _ c u K C D). f_equal; unfold v3sub; cbn [vx vy vz]; f_equal; ring. }
  induction k as [|k IH]; intros u Hu; cbn [invert_curve_loop]; [eauto|].
  match goal with |- context [Qcabs ?x <? _] => replace x with (1 + (u - qc 3 2)) by (unfold v3dot, v3minus, P0; cbn [vx vy vz]; ring) end.
  match goal with |- context [u - ?x / _] => replace x with (u - qc 3 2) by (unfold v3dot, v3minus, P0; cbn [vx vy vz]; ring) end.
  set (e := u - qc 3 2) in *. assert (0 < e) as He by (unfold e; qc_lra).
  destruct (_ <? _); [eauto|]. destruct (len_le _ _ _ _); [eauto|]. rewrite EV. cbn [bind]. destruct (len_le _ _ _ _); [eauto|].
  rewrite DV. cbn [bind]. destruct (cos_le _ _ _ _); [eauto|]. rewrite SV. cbn [bind]. apply IH.
  assert (1 + e <> 0) as N by (intros F; qc_lra).
  assert (u - e / (1 + e) = qc 3 2 + e * e / (1 + e)) as ->.
  { replace u with (qc 3 2 + e) by (unfold e; ring). field. exact N. }
  assert (0 < e * e / (1 + e)) by (unfold Qcdiv; apply Qcmul_pos; [apply Qcmul_pos; assumption|apply Qcinv_pos; qc_lra]). qc_lra.
Qed.
Lemma leaves_domain len tol1 tol2 k : len (V3 1 0 0) = Some 1 -> len (V3 (qc 1 2) 0 0) = Some (qc 1 2) -> tol1 < qc 1 2 -> tol2 < 1 -> (1 <= k)%nat ->
  exists c r, nc_make3 [V3 0 0 0; V3 1 0 0] 1 false = Ok c /\ nc_interval c = (0, 1) /\ invert_curve len c (V3 (qc 3 2) 0 0) 1 tol1 tol2 k = Ok r /\ 1 < r.
Proof.
  intros L1 L2 T1 T2 Hk. destruct (segment_made (V3 0 0 0) (V3 1 0 0)) as (c & E & K & C & D & P). exists c.
  assert (nc_interval c = (0, 1)) as I by (destruct (make_unit [V3 0 0 0; V3 1 0 0] 1 ltac:(cbn; lia)) as (c' & n & U & E' & _ & _ & _ & _ & _ & _ & I & _); rewrite E in E'; injection E' as <-; exact I).
  assert (forall u, evaluate c u = Ok (V3 u 0 0)) as EV. { intros u. rewrite (segment_eval _ _ c u K C D). f_equal; unfold lerp3; cbn [vx vy vz]; f_equal; ring. }
  assert (forall u, nc_derivative c u = Ok (V3 1 0 0)) as DV. { intros u. rewrite (segment_deriv _ _ c u K C D P). f_equal; unfold v3sub; cbn [vx vy vz]; f_equal; ring. }
  assert (forall u, nc_second_derivative_fdm c u = Ok (V3 1 0 0)) as SV. { intros u. rewrite (segment_second _ _ c u K C D). f_equal; unfold v3sub; cbn [vx vy vz]; f_equal; ring. }
  destruct k as [|k]; [lia|].
  unfold invert_curve. rewrite EV, DV, SV. cbn [bind invert_curve_loop].
  match goal with |- context [Qcabs ?x <? _] => replace x with (qc 1 2) by (apply Qc_is_canon; vm_compute; reflexivity) end.
  match goal with |- context [1 - ?x / _] => replace x with (- qc 1 2) by (apply Qc_is_canon; vm_compute; reflexivity) end.
  change (Qcabs (qc 1 2) <? DBL_EPS) with false. cbv iota.
  replace (1 - - qc 1 2 / qc 1 2) with (qc 2 1) by (apply Qc_is_canon; vm_compute; reflexivity).
  assert (len_le len (Qcabs (qc 2 1 - 1)) (V3 1 0 0) tol1 = false) as ->.
  { unfold len_le. rewrite L1. replace (Qcabs (qc 2 1 - 1) * 1) with 1 by (apply Qc_is_canon; vm_compute; reflexivity). destruct (Qcleb_spec 1 tol1) as [F|F]; [exfalso; qc_lra|reflexivity]. }
  rewrite EV. cbn [bind]. replace (v3minus (V3 (qc 2 1) 0 0) (V3 (qc 3 2) 0 0)) with (V3 (qc 1 2) 0 0) by (unfold v3minus; cbn [vx vy vz]; f_equal; apply Qc_is_canon; vm_compute; reflexivity).
  assert (len_le len 1 (V3 (qc 1 2) 0 0) tol1 = false) as ->.
  { unfold len_le. rewrite L2. replace (1 * qc 1 2) with (qc 1 2) by ring. destruct (Qcleb_spec (qc 1 2) tol1) as [F|F]; [exfalso; qc_lra|reflexivity]. }
  rewrite DV. cbn [bind]. assert (cos_le len (V3 1 0 0) (V3 (qc 1 2) 0 0) tol2 = false) as ->.
  { unfold cos_le. rewrite L1, L2. change (1 * qc 1 2 =? 0) with false. cbv iota.
    match goal with |- (?x <=? _) = _ => replace x with 1 by (apply Qc_is_canon; vm_compute; reflexivity) end. destruct (Qcleb_spec 1 tol2) as [F|F]; [exfalso; qc_lra|reflexivity]. }
  rewrite SV. cbn [bind]. destruct (loop_beyond len c tol1 tol2 K C D P k (qc 2 1)) as (r & Er & Hr); [reflexivity|].
  exists r. split; [exact E|]. split; [exact I|]. split; [exact Er|]. apply Qclt_trans with (qc 3 2); [reflexivity|exact Hr].
Qed.

(** ** surfaces *)
Lemma surface_stays len k s P u v tol1 tol2 du dv : len (V3 0 0 0) = Some 0 -> 0 <= tol1 ->
  ns_evaluate s u v = Ok P -> ns_derivative_u s u v = Ok du -> ns_derivative_v s u v = Ok dv ->
  (k = 0%nat \/ ~ Qcabs (gram du dv) < DBL_EPS -> invert_surface len k s P u v tol1 tol2 = Ok (u, v)) /\
  ((1 <= k)%nat -> Qcabs (gram du dv) < DBL_EPS -> invert_surface len k s P u v tol1 tol2 = Throw ERuntime).
Proof.
  intros L0 T E EU EV. split.
  - intros H. destruct k as [|k]; [reflexivity|]. cbn [invert_surface]. rewrite E, EU, EV. cbn [bind]. rewrite v3minus_self, !v3dot_0_r.
    destruct H as [H|H]; [discriminate|]. unfold solve2x2. cbn [m00 m01 m10 m11]. fold (gram du dv). destruct (Qcltb_spec (Qcabs (gram du dv)) DBL_EPS) as [F|F]; [contradiction|].
    match goal with |- context [u - ?x] => replace x with 0 by (unfold Qcdiv; ring) end. match goal with |- context [v - ?x] => replace x with 0 by (unfold Qcdiv; ring) end.
    replace (u - 0) with u by ring. replace (v - 0) with v by ring. rewrite E. cbn [bind]. rewrite v3minus_self.
    assert (len_le len 1 (V3 0 0 0) tol1 = true) as ->. { unfold len_le. rewrite L0. apply Qcleb_iff. replace (1 * 0) with 0 by ring. exact T. }
    destruct (len_sum_le _ _ _ _ _ _); reflexivity.
  - intros Hk H. destruct k as [|k]; [lia|]. cbn [invert_surface]. rewrite E, EU, EV. cbn [bind]. unfold solve2x2. cbn [m00 m01 m10 m11]. fold (gram du dv).
    destruct (Qcltb_spec (Qcabs (gram du dv)) DBL_EPS) as [F|F]; [reflexivity|contradiction].
Qed.

Lemma plane_made o a b : exists s, parallelogram o a b = Ok s /\ ns_ku s = kn01 /\ ns_kv s = kn01 /\ ns_du s = 1%nat /\ ns_dv s = 1%nat /\ ns_su s = 2%nat /\ ns_sv s = 2%nat /\
  ns_iu s = (0, 1) /\ ns_iv s = (0, 1) /\
  ns_cps s = [[v3_of o; v3_of (combine3 o a b 0 1)]; [v3_of (combine3 o a b 1 0); v3_of (combine3 o a b 1 1)]].
Proof.
  unfold parallelogram, ns_make, ns_update_interval. cbn [ns_ku ns_kv range_of bind].
  eexists. split; [reflexivity|]. cbn. repeat split.
Qed.

Lemma plane_eval o a b s u v : ns_ku s = kn01 -> ns_kv s = kn01 -> ns_du s = 1%nat -> ns_dv s = 1%nat -> ns_su s = 2%nat -> ns_sv s = 2%nat ->
  ns_cps s = [[v3_of o; v3_of (combine3 o a b 0 1)]; [v3_of (combine3 o a b 1 0); v3_of (combine3 o a b 1 1)]] ->
  ns_evaluate s u v = Ok (combine3 o a b u v).
Proof.
  intros A1 A2 A3 A4 A5 A6 A7. unfold ns_evaluate. rewrite A1, A2, A3, A4, A5, A6, A7. unfold surface_point. cbn [last_index surf_span].
  change (find_span 1 1 u kn01) with (@Ok nat 1%nat). change (find_span 1 1 v kn01) with (@Ok nat 1%nat). cbn [bind]. rewrite !basis_line. cbn [bind].
  destruct o as [o1 o2 o3], a as [a1 a2 a3], b as [b1 b2 b3]. unfold v3_of, combine3. cbn [vx vy vz].
  step. rewrite !q1 by ring. step. f_equal. f_equal; ring.
Qed.
Lemma plane_du o a b s u v : (forall u v, ns_evaluate s u v = Ok (combine3 o a b u v)) -> ns_derivative_u s u v = Ok a /\ ns_derivative_v s u v = Ok b.
Proof.
  intros E. unfold ns_derivative_u, ns_derivative_v. rewrite !E. cbn [bind].
  pose proof fdm_2h_nz as N. rewrite fdm_double in *. set (h := fdm_h) in *. clearbody h. assert (h <> 0) as Hh by (intros F; apply N; rewrite F; ring).
  destruct a as [a1 a2 a3], b as [b1 b2 b3]. unfold v3scale_div, v3minus, combine3. cbn [vx vy vz].
  split; f_equal; f_equal; field; (split; [exact Hh|discriminate]).
Qed.
Lemma plane_still len o a b P u v tol1 tol2 k : ~ Qcabs (gram a b) < DBL_EPS -> len a <> Some 0 -> 0 <= tol1 -> 0 <= tol2 ->
  exists s, parallelogram o a b = Ok s /\ ns_iu s = (0, 1) /\ ns_iv s = (0, 1) /\ (forall u v, ns_evaluate s u v = Ok (combine3 o a b u v)) /\
    invert_surface len k s P u v tol1 tol2 = Ok (u, v).
Proof.
  intros G L T1 T2. destruct (plane_made o a b) as (s & E & A1 & A2 & A3 & A4 & A5 & A6 & A8 & A9 & A7). exists s. split; [exact E|]. split; [exact A8|]. split; [exact A9|].
  assert (forall u v, ns_evaluate s u v = Ok (combine3 o a b u v)) as EV by (intros; apply plane_eval; assumption). split; [exact EV|].
  destruct k as [|k]; [reflexivity|]. cbn [invert_surface].
  assert (forall u v, ns_derivative_u s u v = Ok a) as DU by (intros u' v'; exact (proj1 (plane_du o a b s u' v' EV))).
  assert (forall u v, ns_derivative_v s u v = Ok b) as DV by (intros u' v'; exact (proj2 (plane_du o a b s u' v' EV))).
  rewrite EV, DU, DV. cbn [bind]. set (r := v3minus (combine3 o a b u v) P).
  destruct (solve_top (M2 (v3dot a a) (v3dot a b) (v3dot b a) (v3dot b b)) (v3dot a r) (v3dot b r)) as [_ HS]. cbn [m00 m01 m10 m11] in HS.
  destruct (HS G) as (x & y & -> & HU). destruct (proj2 (HU x y) (conj eq_refl eq_refl)) as [Q1 Q2]. clear HS HU.
  destruct (len_sum_le _ _ _ _ _ _); [reflexivity|]. rewrite EV. cbn [bind].
  set (r' := v3minus (combine3 o a b (u - x) (v - y)) P).
  assert (v3dot a r' = 0) as O.
  { transitivity (v3dot a r - (v3dot a a * x + v3dot a b * y)); [|rewrite Q1; ring].
    unfold r', r, v3dot, v3minus, combine3. cbn [vx vy vz]. ring. }
  destruct (len_le len 1 r' tol1) eqn:L1; [reflexivity|]. rewrite DU. cbn [bind].
  assert (cos_le len a r' tol2 = true) as ->; [|reflexivity].
  assert ((0 <=? tol2) = true) as T2' by (apply Qcleb_iff; exact T2).
  unfold cos_le, len_le in *. destruct (len a) as [l|], (len r') as [m|]; try exact T2'.
  - destruct (Qceqb_spec (l * m) 0) as [F|F].
    + exfalso. destruct (Qcmult_integral _ _ F) as [->| ->]; [apply L; reflexivity|]. apply not_true_iff_false in L1. apply L1, Qcleb_iff. replace (1 * 0) with 0 by ring. exact T1.
    + rewrite O. change (Qcabs 0) with 0. apply Qcleb_iff. unfold Qcdiv. replace (0 * / (l * m)) with 0 by ring. exact T2.
  - destruct (Qceqb_spec l 0) as [F|F]; [exfalso; apply L; rewrite F; reflexivity|exact T2'].
  - (* unreachable zero product of an infinite side length *)
    destruct (Qceqb_spec m 0) as [F|F]; [|exact T2']. exfalso. apply not_true_iff_false in L1. apply L1, Qcleb_iff. rewrite F. replace (1 * 0) with 0 by ring. exact T1.
Qed.

(** ** improve_uv *)
Lemma improve_none du dv delta : improve_uv du dv delta = None.
Proof. reflexivity. Qed.
