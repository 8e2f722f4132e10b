(** Counterexamples and concrete cases for planes. *)
From Coq Require Import List ZArith Reals Lra Lia.
From Verif Require Import Base ModelPlane SpecPlane ProofPlane.
Import ListNotations.
Open Scope R_scope.

(** a rounding that meets the assumptions *)
Definition sample_fl (x : R) : R := if Req_EM_T x 16777217 then 16777216 else x.
Lemma sample_rounding : float_rounding sample_fl.
Proof.
  unfold float_rounding, float_like, sample_fl. split; [|split].
  - intros x Hx. assert (2 ^ 24 = 16777216) as -> by (cbn [pow]; lra). destruct (Req_EM_T x 16777217) as [->|N]; [apply Rabs_le; lra|]. replace (x - x) with 0 by ring. rewrite Rabs_R0. lra.
  - intros n k N K. destruct (Req_EM_T _ _) as [E|E]; [|reflexivity]. exfalso. assert (1 <= 2 ^ k) as P by (apply pow_R1_Rle; lra). assert (IZR n = 16777217 * 2 ^ k) as F by (rewrite <- E; field; lra).
    assert (n <= 2 ^ 24)%Z as L by lia. apply IZR_le in L. change (2 ^ 24)%Z with 16777216%Z in L. lra.
  - destruct (Req_EM_T _ _); [reflexivity|lra].
Qed.
Section Fl.
Variable fl : R -> R.
Hypothesis FL : float_rounding fl.
Lemma fl_int (n : Z) : (Z.abs n <= 2 ^ 24)%Z -> fl (IZR n) = IZR n.
Proof. intros H. destruct FL as (_ & E & _). specialize (E n 0%nat H ltac:(lia)). cbn [pow] in E. replace (IZR n / 1) with (IZR n) in E by field. exact E. Qed.
Lemma fl_0 : fl 0 = 0. Proof. apply (fl_int 0). cbn. lia. Qed.
Lemma fl_1 : fl 1 = 1. Proof. apply (fl_int 1). cbn. lia. Qed.
Lemma fl_2 : fl 2 = 2. Proof. apply (fl_int 2). cbn. lia. Qed.
Lemma fl_4 : fl 4 = 4. Proof. apply (fl_int 4). cbn. lia. Qed.
Lemma sqrt_4' : sqrt 4 = 2. Proof. replace 4 with (2 * 2) by ring. apply sqrt_square. lra. Qed.

Lemma normal_case : exists p, plane_of_normal fl (RV 0 0 1) = Ok p.
Proof.
  unfold plane_of_normal, rvlength, rvsq. cbn [rx ry rz]. replace (0 * 0 + 0 * 0 + 1 * 1) with 1 by ring. rewrite fl_1, sqrt_1, fl_1. unfold rvdiv. destruct (Req_EM_T 1 0); [lra|]. cbn [bind]. eexists. reflexivity.
Qed.
Lemma equation_x : exists p, plane_of_equation 1 0 0 0 = Ok p /\ p_a p = 1 /\ p_b p = 0 /\ p_c p = 0.
Proof.
  unfold plane_of_equation. cbv zeta. replace (1 * 1 + 0 * 0 + 0 * 0) with 1 by ring. rewrite sqrt_1. unfold rvdiv. destruct (Req_EM_T 1 0); [lra|]. cbn [bind]. eexists. split; [reflexivity|]. cbn. auto.
Qed.
Lemma never_meets : exists p, built fl p /\ (forall q, plane_plane p q = None) /\ not_parallel p plane_default /\ exists x, on_plane p x /\ on_plane plane_default x.
Proof.
  destruct equation_x as (p & E & A & B & C). exists p. split; [exact (built_equation fl _ _ _ _ _ E)|]. split; [intros q; exact (axis_plane_never _ _ _ q E)|]. split.
  - unfold not_parallel. rewrite A, B, C. cbn. intros H. pose proof (f_equal ry H) as K. cbn in K. lra.
  - exists (RV 0 0 0). unfold on_plane, eval_eq. rewrite A, B, C. cbn. assert (p_d p = 0) as ->; [|lra]. clear - E. unfold plane_of_equation in E. cbv zeta in E. destruct (rvdiv _ _); cbn [bind] in E; [|discriminate..]. apply Ok_injr in E. subst p. reflexivity.
Qed.
(** a pair that is reported *)
Lemma skew_meets : exists p u v, plane_of_equation 2 1 1 0 = Ok p /\ built fl plane_default /\ plane_plane p plane_default = Some (u, v).
Proof.
  unfold plane_of_equation. cbv zeta. set (k := sqrt _). assert (k * k = 6) as K by (unfold k; rewrite sqrt_sqrt; lra). assert (0 <= k) by apply sqrt_pos. unfold rvdiv. destruct (Req_EM_T k 0) as [Z|Z]; [rewrite Z in K; lra|]. cbn [bind].
  do 3 eexists. split; [reflexivity|]. split; [constructor|]. unfold plane_plane. cbn [p_normal p_a p_b p_c p_d plane_default]. cbv zeta. match goal with |- context [Rlt_dec (rvsq ?x) R_EPS] => assert (rvsq x = 5 / 6) as Et end.
  { unfold rvsq. cbn. replace (_ + _ + _) with (2 * 1 * (5 / (k * k)) / 2) by (field; exact Z). rewrite K. lra. } rewrite Et. destruct (Rlt_dec (5 / 6) R_EPS) as [C|_]; [unfold R_EPS in C; lra|].
  unfold max_index. rewrite !Rabs_right by lra. destruct (Rlt_dec 2 1); [lra|]. destruct (Rlt_dec 2 1); [lra|]. destruct (Rlt_dec _ R_EPS) as [C|_]; [unfold R_EPS in C; lra|]. reflexivity.
Qed.
Lemma origin_off : exists o n p d, plane_of_origin_normal fl o n = Ok p /\ signed_distance p o = Ok d /\ d <> 0.
Proof.
  exists (RV 1 0 0), (RV 1 0 0). unfold plane_of_origin_normal. cbv zeta. unfold rvlength, rvsq. cbn [rx ry rz]. replace (1 * 1 + 0 * 0 + 0 * 0) with 1 by ring. rewrite fl_1, sqrt_1, fl_1.
  unfold rvdiv. destruct (Req_EM_T 1 0); [lra|]. cbn [bind]. do 2 eexists. split; [reflexivity|]. unfold signed_distance, plane_poly. cbn. destruct (Req_EM_T 1 0); [lra|]. split; [reflexivity|]. lra.
Qed.
Lemma points_off : exists p0 p1 p2 p, plane_of_points fl p0 p1 p2 = Ok p /\ ~ on_plane p p0.
Proof.
  exists (RV 0 16777217 0), (RV 0 0 1), (RV 1 0 0). unfold plane_of_points, plane_eq_from_pts. cbn [rx ry rz]. replace (16777217 * 1) with 16777217 by ring. replace (0 * 0) with 0 by ring. rewrite fl_0, (proj2 (proj2 FL)).
  unfold plane_of_equation. cbv zeta. unfold rvdiv. destruct (Req_EM_T _ 0) as [Z|Z].
  - exfalso. match type of Z with sqrt ?s = 0 => assert (0 < s) as P by lra; apply sqrt_lt_R0 in P; lra end.
  - cbn [bind]. eexists. split; [reflexivity|]. unfold on_plane, eval_eq. cbn. lra.
Qed.
Lemma ray_behind : exists q, plane_ray plane_default (RV 0 0 (- 1)) (RV 0 0 (- 1)) = Some q /\ ~ on_ray (RV 0 0 (- 1)) (RV 0 0 (- 1)) q.
Proof.
  unfold plane_ray, plane_poly. cbn. replace (0 * 0 + 0 * 0 + 1 * -1) with (- (1)) by ring. assert (Rabs (- (1)) = 1) as E1 by (rewrite Rabs_Ropp; exact Rabs_R1). destruct (Rlt_dec _ R_1em8) as [C|_]; [unfold R_1em8 in C; lra|]. eexists. split; [reflexivity|].
  intros (t & T & E). pose proof (f_equal rz E) as Z. cbn in Z. assert (forall x, x / - (1) = - x) as D by (intros; field). rewrite D in Z. lra.
Qed.
Lemma coplanar_wrong : exists pts, is_pts_coplanar fl R_EPS pts = true /\ ~ coplanar pts.
Proof.
  exists [RV 0 0 0; RV 1 0 0; RV 0 1 0; RV 0 0 1]. split; [reflexivity|]. intros (a & b & c & d & N & H).
  pose proof (H (RV 0 0 0) ltac:(cbn; tauto)) as H0. pose proof (H (RV 1 0 0) ltac:(cbn; tauto)) as H1. pose proof (H (RV 0 1 0) ltac:(cbn; tauto)) as H2. pose proof (H (RV 0 0 1) ltac:(cbn; tauto)) as H3. cbn in *. lra.
Qed.
Lemma collinear_accepts : forall eps p3 rest, is_pts_coplanar fl eps (RV 0 0 0 :: RV 1 0 0 :: RV 2 0 0 :: p3 :: rest) = true.
Proof.
  intros eps p3 rest. unfold is_pts_coplanar, plane_eq_from_pts. cbn [rx ry rz]. replace (0 * 0) with 0 by ring. rewrite fl_0. apply forallb_forall. intros q _. unfold too_far.
  destruct (Req_EM_T _ 0) as [Z|Z].
  - destruct (Req_EM_T _ 0) as [Y|Y]; [reflexivity|]. exfalso. apply Y. ring.
  - exfalso. apply Z. match goal with |- sqrt ?s = 0 => replace s with 0 by ring end. apply sqrt_0.
Qed.
Lemma axes_xy : orthonormal (RV 1 0 0) (RV 0 1 0). Proof. unfold orthonormal, rvdot. cbn. lra. Qed.
Lemma coplanar_case : tri_normal (RV 0 0 0) (RV 1 0 0) (RV 0 1 0) <> RV 0 0 0 /\ fl (0 * 0) = 0 * 0.
Proof. split; [|replace (0 * 0) with 0 by ring; exact fl_0]. unfold tri_normal. cbn. intros E. pose proof (f_equal rz E) as K. cbn in K. lra. Qed.
Lemma cplane_off : exists o x y c d, orthonormal x y /\ cplane_make fl o x y = Ok c /\ cplane_distance c o = Ok d /\ d <> 0.
Proof.
  exists (RV 0 0 1), (RV 1 0 0), (RV 0 1 0). unfold cplane_make, plane_of_origin_normal. cbv zeta. unfold rvlength, rvsq. cbn. replace (_ + _ + _) with 1 by ring. rewrite fl_1, sqrt_1, fl_1. unfold rvdiv. destruct (Req_EM_T 1 0); [lra|]. cbn [bind].
  do 2 eexists. split; [exact axes_xy|]. split; [reflexivity|]. unfold cplane_distance, signed_distance, plane_poly. cbn. destruct (Req_EM_T 1 0); [lra|]. split; [reflexivity|]. lra.
Qed.
Lemma cplane_trip : exists o x y c, cplane_make fl o x y = Ok c /\ cplane_inverse c (cplane_evaluate c 1 0) <> RV 1 0 0.
Proof.
  exists (RV 0 0 0), (RV 2 0 0), (RV 0 1 0). unfold cplane_make, plane_of_origin_normal. cbv zeta. unfold rvlength, rvsq. cbn. replace (_ + _ + _) with 4 by ring. rewrite fl_4, sqrt_4', fl_2. unfold rvdiv. destruct (Req_EM_T 2 0); [lra|]. cbn [bind].
  eexists. split; [reflexivity|]. unfold cplane_inverse, cplane_evaluate, rvdot. cbn. intros E. pose proof (f_equal rx E) as K. cbn in K. lra.
Qed.
Lemma unit_short : exists a, rvunit fl a = a /\ rvsq a = / 4.
Proof.
  exists (RV (1 / 2) 0 0). assert (rvsq (RV (1 / 2) 0 0) = 1 / 4) as E by (unfold rvsq; cbn; field). split; [|rewrite E; field]. unfold rvunit, rvlength. cbv zeta. rewrite E.
  destruct FL as (_ & X & _). pose proof (X 1%Z 2%nat ltac:(cbn; lia) ltac:(lia)) as X2. pose proof (X 1%Z 1%nat ltac:(cbn; lia) ltac:(lia)) as X1. cbn [pow] in X1, X2. replace (2 * (2 * 1)) with 4 in X2 by ring. replace (2 * 1) with 2 in X1 by ring. rewrite X2.
  assert (sqrt (1 / 4) = 1 / 2) as ->. { replace (1 / 4) with ((1 / 2) * (1 / 2)) by field. apply sqrt_square. lra. } rewrite X1.
  destruct (Rle_dec (1 / 2) R_EPS); [reflexivity|]. destruct (Rle_dec (1 / 2 - 1) R_EPS) as [_|C]; [reflexivity|]. exfalso. apply C. unfold R_EPS. lra.
Qed.
Lemma origin_off_equation : exists p, plane_of_equation 0 0 1 1 = Ok p /\ ~ on_plane p (p_origin p).
Proof.
  assert (exists p, plane_of_equation 0 0 1 1 = Ok p) as (p & E).
  { unfold plane_of_equation. cbv zeta. replace (0 * 0 + 0 * 0 + 1 * 1) with 1 by ring. rewrite sqrt_1. unfold rvdiv. destruct (Req_EM_T 1 0); [lra|]. cbn [bind]. eauto. }
  exists p. split; [exact E|]. intros H. apply (equation_origin _ _ _ _ _ E) in H. lra.
Qed.
Lemma line_case : exists q, plane_line plane_default (RV 0 0 (- 1)) (RV 3 0 2) = Some q /\ on_plane plane_default q.
Proof.
  apply line_complete.
  - unfold eval_eq. cbn. rewrite Rabs_right by lra. unfold R_EPS. lra.
  - exists (RV 1 0 0). split; [exists (1 / 3); split; [lra|]; apply rv_eq; cbn; field|]. unfold on_plane, eval_eq. cbn. ring.
Qed.
End Fl.
