(** Proofs about planes. *)
From Coq Require Import List ZArith Reals Lra Lia Nsatz.
From Verif Require Import Base ModelPlane SpecPlane.
Import ListNotations.
Open Scope R_scope.

Lemma Ok_injr {A} (x y : A) : Ok x = Ok y -> x = y. Proof. congruence. Qed.
Lemma eps_pos : 0 < R_EPS. Proof. unfold R_EPS. lra. Qed.
Lemma eps8_pos : 0 < R_1em8. Proof. unfold R_1em8. lra. Qed.
Lemma rv_eq a b : rx a = rx b -> ry a = ry b -> rz a = rz b -> a = b.
Proof. destruct a, b. cbn. intros -> -> ->. reflexivity. Qed.

Lemma poly_eval p q : plane_poly p q = eval_eq p q. Proof. unfold plane_poly, eval_eq. ring. Qed.

Lemma abs_ge_nz x e : 0 < e -> ~ Rabs x < e -> x <> 0.
Proof. intros E H ->. apply H. rewrite Rabs_R0. exact E. Qed.

Lemma ray_on_plane : forall p s d q, plane_ray p s d = Some q -> on_line s d q /\ (on_plane p q \/ (q = s /\ Rabs (eval_eq p q) < R_1em8)).
Proof.
  intros p s d q. unfold plane_ray. cbv zeta. rewrite poly_eval. destruct (Rlt_dec _ R_1em8) as [H|H].
  - destruct (Rlt_dec _ R_1em8) as [K|K]; [|discriminate]. intros [= <-]. split; [exists 0; apply rv_eq; cbn; ring|]. right. split; [reflexivity|]. rewrite Rabs_Ropp in K. exact K.
  - intros [= <-]. apply abs_ge_nz in H; [|exact eps8_pos]. split; [eexists; reflexivity|]. left. unfold on_plane, eval_eq in *. cbn. field. exact H.
Qed.
Lemma line_on_plane : forall p s e q, plane_line p s e = Some q -> on_segment s e q /\ (on_plane p q \/ (q = s /\ Rabs (eval_eq p q) < R_EPS)).
Proof.
  intros p s e q. unfold plane_line. cbv zeta. rewrite poly_eval. destruct (Rlt_dec _ R_EPS) as [H|H].
  - destruct (Rlt_dec _ R_EPS) as [K|K]; [|discriminate]. intros [= <-]. split; [exists 0; split; [lra|]; apply rv_eq; cbn; ring|]. right. split; [reflexivity|]. rewrite Rabs_Ropp in K. exact K.
  - destruct (Rlt_dec _ 0); [discriminate|]. destruct (Rlt_dec 1 _); [discriminate|]. intros [= <-]. apply abs_ge_nz in H; [|exact eps_pos].
    split; [eexists; split; [split; apply Rnot_lt_le; eassumption|apply rv_eq; cbn; ring]|]. left. unfold on_plane, eval_eq in *. cbn in *. field. exact H.
Qed.
Lemma line_complete : forall p s e, R_EPS <= Rabs (eval_eq p e - eval_eq p s) -> (exists q, on_segment s e q /\ on_plane p q) -> exists q, plane_line p s e = Some q /\ on_plane p q.
Proof.
  intros p s e G (q & (t & T & ->) & O). unfold plane_line. cbv zeta. rewrite poly_eval.
  set (D := p_a p * _ + _ + _). assert (D = eval_eq p e - eval_eq p s) as ED by (unfold D, eval_eq; cbn; ring). rewrite ED in *. clear D ED.
  destruct (Rlt_dec _ R_EPS) as [H|H]; [lra|]. apply abs_ge_nz in H; [|exact eps_pos].
  assert (- eval_eq p s / (eval_eq p e - eval_eq p s) = t) as Et.
  { apply Rmult_eq_reg_r with (eval_eq p e - eval_eq p s); [|exact H]. unfold on_plane in O. replace (- eval_eq p s / _ * _) with (- eval_eq p s) by (field; exact H).
    assert (eval_eq p (at_param s e t) = eval_eq p s + t * (eval_eq p e - eval_eq p s)) as E by (unfold eval_eq; cbn; ring). rewrite E in O. lra. }
  rewrite Et. destruct (Rlt_dec t 0); [lra|]. destruct (Rlt_dec 1 t); [lra|]. eexists. split; [reflexivity|]. replace (rvadd s _) with (at_param s e t); [exact O|]. apply rv_eq; cbn; ring.
Qed.

(** ** two and three planes *)
Lemma built_normal_scale fl p : built fl p -> exists k, p_normal p = rvscale (RV (p_a p) (p_b p) (p_c p)) k.
Proof.
  assert (forall v k n, rvdiv v k = Ok n -> exists m, n = rvscale v m) as D.
  { intros v k n. unfold rvdiv. destruct (Req_EM_T k 0); [discriminate|]. intros [= <-]. exists (/ k). reflexivity. }
  assert (forall a b c d p, plane_of_equation a b c d = Ok p -> exists k, p_normal p = rvscale (RV (p_a p) (p_b p) (p_c p)) k) as E.
  { intros a b c d q. unfold plane_of_equation. cbv zeta. destruct (rvdiv _ _) as [n| |] eqn:Ed; cbn [bind]; [|discriminate..]. intros H. apply Ok_injr in H. subst q. cbn. exact (D _ _ _ Ed). }
  intros [|a b c d q H|n q H|o n q H|p0 p1 p2 q H].
  - exists 1. cbn. apply rv_eq; cbn; ring.
  - exact (E _ _ _ _ _ H).
  - unfold plane_of_normal in H. cbv zeta in H. destruct (rvdiv _ _) as [m| |] eqn:Ed; cbn [bind] in H; [|discriminate..]. apply Ok_injr in H. subst q. cbn. destruct n. exact (D _ _ _ Ed).
  - unfold plane_of_origin_normal in H. cbv zeta in H. destruct (rvdiv _ _) as [m| |] eqn:Ed; cbn [bind] in H; [|discriminate..]. apply Ok_injr in H. subst q. cbn. destruct n. exact (D _ _ _ Ed).
  - unfold plane_of_points in H. destruct (plane_eq_from_pts fl p0 p1 p2) as (((a & b) & c) & d). exact (E _ _ _ _ _ H).
Qed.
Lemma plane_plane_on : forall fl p q u v, built fl p -> built fl q -> plane_plane p q = Some (u, v) ->
  on_plane p u /\ on_plane q u /\ on_plane p v /\ on_plane q v /\ u <> v.
Proof.
  intros fl p q u v Bp Bq. destruct (built_normal_scale fl p Bp) as (k & Ek). destruct (built_normal_scale fl q Bq) as (m & Em).
  unfold plane_plane. cbv zeta. set (dir := rvcross _ _). destruct (Rlt_dec _ R_EPS) as [H|H]; [discriminate|].
  assert (rvdot (RV (p_a p) (p_b p) (p_c p)) dir = 0 /\ rvdot (RV (p_a q) (p_b q) (p_c q)) dir = 0) as (D1 & D2) by (unfold dir; rewrite Ek, Em; unfold rvdot, rvcross, rvscale; cbn [rx ry rz]; split; ring).
  assert (dir <> RV 0 0 0) as NZ by (intros E; apply H; rewrite E; unfold rvsq; cbn; pose proof eps_pos; lra). clearbody dir. unfold rvdot in D1, D2. cbn in D1, D2.
  assert (forall a, on_plane p a -> on_plane q a -> Some (a, rvadd a dir) = Some (u, v) -> on_plane p u /\ on_plane q u /\ on_plane p v /\ on_plane q v /\ u <> v) as F.
  { intros a P1 P2 E. injection E as <- <-. unfold on_plane, eval_eq in *. cbn. split; [exact P1|]. split; [exact P2|]. split; [lra|]. split; [lra|]. intros E. apply NZ. pose proof (f_equal rx E). pose proof (f_equal ry E). pose proof (f_equal rz E). cbn in *. apply rv_eq; cbn; lra. }
  assert (forall x e, ~ Rabs x < e -> e = R_EPS -> x <> 0) as ND by (intros x e X ->; apply (abs_ge_nz _ _ eps_pos X)).
  destruct (max_index _ _ _) as [|[|i]]; (destruct (Rlt_dec (Rabs _) R_EPS) as [K|K]; [discriminate|]); pose proof (ND _ _ K eq_refl) as K'; apply F; unfold on_plane, eval_eq; cbn; field; exact K'.
Qed.
Lemma three_planes : forall p q r x, plane_plane_plane p q r = Some x ->
  on_plane p x /\ on_plane q x /\ on_plane r x /\ forall y, on_plane p y -> on_plane q y -> on_plane r y -> y = x.
Proof.
  intros p q r x. unfold plane_plane_plane. cbv zeta. set (Det := det3 _ _ _ _ _ _ _ _ _). destruct (Rlt_dec _ R_1em8) as [H|H]; [discriminate|]. apply abs_ge_nz in H; [|exact eps8_pos].
  intros [= <-]. unfold on_plane, eval_eq, Det, det3 in *. cbn [rx ry rz].
  destruct p as [? a1 b1 c1 d1 ? ?], q as [? a2 b2 c2 d2 ? ?], r as [? a3 b3 c3 d3 ? ?]. cbn [p_a p_b p_c p_d] in *.
  repeat split; try (field; exact H). intros [y1 y2 y3] E1 E2 E3. cbn [rx ry rz] in *.
  assert (d1 = - (a1 * y1 + b1 * y2 + c1 * y3)) by lra. assert (d2 = - (a2 * y1 + b2 * y2 + c2 * y3)) by lra. assert (d3 = - (a3 * y1 + b3 * y2 + c3 * y3)) by lra. subst d1 d2 d3.
  apply rv_eq; cbn; field; exact H.
Qed.
Lemma axis_plane_never : forall a d p q, plane_of_equation a 0 0 d = Ok p -> plane_plane p q = None.
Proof.
  intros a d p q. unfold plane_of_equation. cbv zeta. destruct (rvdiv _ _) as [n| |]; cbn [bind]; [|discriminate..]. intros H. apply Ok_injr in H. subst p. unfold plane_plane. cbn [p_normal p_a p_b p_c p_d]. cbv zeta.
  destruct (Rlt_dec _ R_EPS); [reflexivity|]. unfold max_index. rewrite Rabs_R0. pose proof (Rabs_pos a). destruct (Rlt_dec (Rabs a) 0); [lra|]. destruct (Rlt_dec (Rabs a) 0); [lra|].
  replace (0 * p_c q - p_b q * 0) with 0 by ring. rewrite Rabs_R0. destruct (Rlt_dec 0 R_EPS) as [_|C]; [reflexivity|]. destruct (C eps_pos).
Qed.

(** ** constructors *)
Lemma origin_normal_distance : forall fl o n p, plane_of_origin_normal fl o n = Ok p -> p_den p <> 0 /\ signed_distance p o = Ok ((rx n * rx o + ry n * ry o) / p_den p).
Proof.
  intros fl o n p. unfold plane_of_origin_normal. cbv zeta. destruct (rvdiv n (rvlength fl n)) as [m| |] eqn:E; cbn [bind]; [|discriminate..]. intros H. apply Ok_injr in H. subst p.
  unfold rvdiv in E. destruct (Req_EM_T (rvlength fl n) 0) as [Z|Z]; [discriminate|]. split; [exact Z|]. unfold signed_distance, plane_poly. cbn. destruct (Req_EM_T _ 0); [contradiction|]. f_equal. f_equal. ring.
Qed.
Lemma sum_sq_zero a b c : a * a + b * b + c * c = 0 -> a = 0 /\ b = 0 /\ c = 0.
Proof. intros. nra. Qed.
Lemma equation_origin : forall a b c d p, plane_of_equation a b c d = Ok p -> (on_plane p (p_origin p) <-> d = 0).
Proof.
  intros a b c d p. unfold plane_of_equation. cbv zeta. set (s := a * a + b * b + c * c). assert (0 <= s) as S0 by (unfold s; nra). unfold rvdiv. destruct (Req_EM_T (sqrt s) 0) as [Z|Z]; cbn [bind]; [discriminate|].
  intros H. apply Ok_injr in H. subst p. unfold on_plane, eval_eq. cbn. pose proof (sqrt_pos s) as P. pose proof (sqrt_sqrt s S0) as Q. set (k := sqrt s) in *.
  replace (a * (a / k * d) + b * (b / k * d) + c * (c / k * d) + d) with (d * (1 + k)). 2:{ replace (a * (a / k * d) + b * (b / k * d) + c * (c / k * d) + d) with (d * ((a * a + b * b + c * c) / k) + d) by (field; exact Z). fold s. rewrite <- Q. field. exact Z. }
  split; [|intros ->; ring]. intros E. apply Rmult_integral in E. destruct E; [assumption|lra].
Qed.
Lemma points_on_plane : forall fl p0 p1 p2 p, fl (ry p0 * rz p1) = ry p0 * rz p1 -> fl (ry p1 * rz p2) = ry p1 * rz p2 -> fl (ry p2 * rz p0) = ry p2 * rz p0 ->
  plane_of_points fl p0 p1 p2 = Ok p -> on_plane p p0 /\ on_plane p p1 /\ on_plane p p2 /\ (p_a p <> 0 \/ p_b p <> 0 \/ p_c p <> 0).
Proof.
  intros fl p0 p1 p2 p F1 F2 F3. unfold plane_of_points, plane_eq_from_pts. rewrite F1, F2, F3. unfold plane_of_equation. cbv zeta. unfold rvdiv. destruct (Req_EM_T _ 0) as [Z|Z]; cbn [bind]; [discriminate|].
  intros H. apply Ok_injr in H. subst p. unfold on_plane, eval_eq. cbn [p_a p_b p_c p_d rx ry rz].
  split; [ring|]. split; [ring|]. split; [ring|].
  match type of Z with sqrt (?a * _ + ?b * _ + ?c * _) <> 0 => destruct (Req_dec a 0) as [Ea|]; [|left; assumption]; destruct (Req_dec b 0) as [Eb|]; [|right; left; assumption]; destruct (Req_dec c 0) as [Ec|]; [|right; right; assumption]; exfalso; apply Z; rewrite Ea, Eb, Ec; replace (0 * 0 + 0 * 0 + 0 * 0) with 0 by ring; apply sqrt_0 end.
Qed.

Lemma normal_origin : forall fl n p, plane_of_normal fl n = Ok p ->
  p_origin p = RV 0 0 0 /\ on_plane p (p_origin p) /\ forall q, on_plane p q <-> rvdot n q = 0.
Proof.
  intros fl n p. unfold plane_of_normal. cbv zeta. destruct (rvdiv _ _) as [m| |]; cbn [bind]; [|discriminate..]. intros H. apply Ok_injr in H. subst p. unfold on_plane, eval_eq. cbn [p_a p_b p_c p_d p_origin rx ry rz].
  split; [reflexivity|]. split; [ring|]. intros q. unfold rvdot. split; intros; lra.
Qed.

(** ** coplanarity *)
Lemma coplanar_rest : forall fl eps p0 p1 p2 p3 rest,
  fl (ry p0 * rz p1) = ry p0 * rz p1 -> fl (ry p1 * rz p2) = ry p1 * rz p2 -> fl (ry p2 * rz p0) = ry p2 * rz p0 -> tri_normal p0 p1 p2 <> RV 0 0 0 ->
  (is_pts_coplanar fl eps (p0 :: p1 :: p2 :: p3 :: rest) = true <-> forall q, In q rest -> Rabs (volume p0 p1 p2 q) < eps * sqrt (rvsq (tri_normal p0 p1 p2))).
Proof.
  intros fl eps p0 p1 p2 p3 rest F1 F2 F3 NZ. unfold is_pts_coplanar, plane_eq_from_pts. rewrite F1, F2, F3. rewrite forallb_forall.
  set (n := tri_normal p0 p1 p2) in *.
  assert (0 < rvsq n) as NP.
  { destruct (Req_dec (rvsq n) 0) as [E|E]; [|unfold rvsq in *; nra]. exfalso. apply NZ. apply sum_sq_zero in E. destruct E as (A & B & C). apply rv_eq; assumption. }
  match goal with |- context [sqrt (?a * _ + ?b * _ + ?c * _)] => assert (a = rx n) as -> by (unfold n; cbn; ring); assert (b = ry n) as -> by (unfold n; cbn; ring); assert (c = rz n) as -> by (unfold n; cbn; ring) end.
  fold (rvsq n). pose proof (sqrt_lt_R0 _ NP) as SP.
  match goal with |- context [too_far (_ + ?d) _ _] => assert (forall q, rx q * rx n + ry q * ry n + rz q * rz n + d = volume p0 p1 p2 q) as EV by (intros q; unfold volume; fold n; unfold n, rvdot; cbn; ring) end.
  unfold too_far. destruct (Req_EM_T (sqrt (rvsq n)) 0) as [Z|_]; [lra|]. split; intros H q Hq; specialize (H q Hq); rewrite EV in *.
  - destruct (Rle_dec eps _) as [L|L]; [discriminate|]. unfold Rdiv in L. rewrite Rabs_mult, (Rabs_right (/ _)) in L by (left; apply Rinv_0_lt_compat; exact SP). apply Rnot_le_lt in L.
    apply (Rmult_lt_compat_r (sqrt (rvsq n))) in L; [|exact SP]. rewrite Rmult_assoc, Rinv_l, Rmult_1_r in L by lra. exact L.
  - destruct (Rle_dec eps _) as [L|L]; [|reflexivity]. exfalso. unfold Rdiv in L. rewrite Rabs_mult, (Rabs_right (/ _)) in L by (left; apply Rinv_0_lt_compat; exact SP).
    apply (Rmult_le_compat_r (sqrt (rvsq n))) in L; [|lra]. rewrite Rmult_assoc, Rinv_l, Rmult_1_r in L by lra. lra.
Qed.

(** ** construction planes *)
Lemma cross_unit x y : orthonormal x y -> rvsq (rvcross x y) = 1.
Proof.
  intros (A & B & C). unfold rvdot in *. unfold rvsq. cbn. replace (_ + _) with ((rx x * rx x + ry x * ry x + rz x * rz x) * (rx y * rx y + ry y * ry y + rz y * rz y) - (rx x * rx y + ry x * ry y + rz x * rz y) * (rx x * rx y + ry x * ry y + rz x * rz y)) by ring. rewrite A, B, C. ring.
Qed.
Lemma basis_complete x y t : orthonormal x y -> let n := rvcross x y in
  t = rvadd (rvadd (rvscale x (rvdot t x)) (rvscale y (rvdot t y))) (rvscale n (rvdot t n)).
Proof.
  intros (A & B & C). cbv zeta. destruct x as [x1 x2 x3], y as [y1 y2 y3], t as [t1 t2 t3]. unfold rvdot in *. cbn in *. apply rv_eq; cbn; nsatz.
Qed.
Lemma cplane_ok : forall fl o x y, fl 1 = 1 -> orthonormal x y -> exists c, cplane_make fl o x y = Ok c /\
  (forall u v, cplane_inverse c (cplane_evaluate c u v) = RV u v 0) /\
  (forall q, let w := cplane_inverse c q in rvadd (cplane_evaluate c (rx w) (ry w)) (rvscale (rvcross x y) (rz w)) = q).
Proof.
  intros fl o x y F ON. pose proof (cross_unit x y ON) as U. unfold cplane_make, plane_of_origin_normal. cbv zeta. unfold rvlength. rewrite U, F, sqrt_1, F. unfold rvdiv. destruct (Req_EM_T 1 0) as [Z|_]; [lra|]. cbn [bind].
  eexists. split; [reflexivity|]. unfold cplane_inverse, cplane_evaluate. cbn [c_plane c_x c_y p_origin p_normal]. split.
  - intros u v. destruct ON as (A & B & C). unfold rvdot in *. apply rv_eq; cbn in *.
    + replace (_ + _ + _) with (u * (rx x * rx x + ry x * ry x + rz x * rz x) + v * (rx x * rx y + ry x * ry y + rz x * rz y)) by ring. rewrite A, C. ring.
    + replace (_ + _ + _) with (u * (rx x * rx y + ry x * ry y + rz x * rz y) + v * (rx y * rx y + ry y * ry y + rz y * rz y)) by ring. rewrite B, C. ring.
    + field.
  - intros q. cbv zeta. pose proof (basis_complete x y (rvsub q o) ON) as E. cbv zeta in E. cbn [rx ry rz].
    set (n := rvcross x y) in *. replace (RV (rx n / 1) (ry n / 1) (rz n / 1)) with n by (apply rv_eq; cbn; field).
    pose proof (f_equal rx E) as E1. pose proof (f_equal ry E) as E2. pose proof (f_equal rz E) as E3. clear E. set (a := rvdot _ x) in *. set (b := rvdot _ y) in *. set (h := rvdot _ n) in *. clearbody a b h. cbn in *. apply rv_eq; cbn; lra.
Qed.
Lemma cplane_distance_value : forall fl o x y c q, cplane_make fl o x y = Ok c -> p_den (c_plane c) <> 0 /\ cplane_distance c q = Ok ((rvdot (rvcross x y) (rvsub q o) - rz (rvcross x y) * rz o) / p_den (c_plane c)).
Proof.
  intros fl o x y c q. unfold cplane_make, plane_of_origin_normal. cbv zeta. set (n := rvcross x y). unfold rvdiv. destruct (Req_EM_T (rvlength fl n) 0) as [Z|Z]; cbn [bind]; [discriminate|]. intros H. apply Ok_injr in H. subst c.
  split; [exact Z|]. unfold cplane_distance, signed_distance, plane_poly. cbn [c_plane p_origin p_den p_a p_b p_c p_d]. destruct (Req_EM_T _ 0); [contradiction|]. f_equal. f_equal. unfold rvdot. cbn. ring.
Qed.

(** ** unit vectors *)
Lemma abs_le_inv x a : Rabs x <= a -> - a <= x <= a. Proof. unfold Rabs. destruct (Rcase_abs x); lra. Qed.
Lemma unit_accuracy : forall fl a, float_like fl -> 4 <= rvsq a <= 2 ^ 100 -> Rabs (rvsq (rvunit fl a) - 1) <= / 2 ^ 22.
Proof.
  intros fl a F (A & B). unfold rvunit. cbv zeta. unfold rvlength. set (s := rvsq a) in *. set (g := fl s). set (r := sqrt g). set (l := fl r).
  assert (Rabs (g - s) <= s / 2 ^ 24) as G by (apply F; lra). pose proof (abs_le_inv _ _ G) as G'. 
  assert (Hg : 3 <= g <= 2 ^ 101) by (split; lra).
  assert (0 <= r) as R0 by apply sqrt_pos. assert (r * r = g) as RR by (apply sqrt_sqrt; lra). assert (1 <= r <= 2 ^ 120) as Hr by (split; nra).
  assert (Rabs (l - r) <= r / 2 ^ 24) as L by (apply F; exact Hr). pose proof (abs_le_inv _ _ L) as L'.
  assert (1 + R_EPS < l) as L1. { assert (17 / 10 <= r) by nra. unfold R_EPS. lra. }
  destruct (Rle_dec l R_EPS) as [C|_]; [unfold R_EPS in *; lra|]. destruct (Rle_dec (l - 1) R_EPS) as [C|_]; [lra|].
  set (v := RV _ _ _). assert (rvsq v = s / (l * l)) as -> by (unfold v, s, rvsq; cbn; field; unfold R_EPS in L1; lra).
  assert (0 < l * l) as LP by (unfold R_EPS in L1; nra).
  assert (Rabs (s - l * l) <= / 2 ^ 22 * (l * l)) as K.
  { apply Rabs_le. assert (2 ^ 24 = 16777216) as E24 by (cbn [pow]; lra). assert (2 ^ 22 = 4194304) as E22 by (cbn [pow]; lra). rewrite E22. rewrite E24 in *. set (d := / 16777216) in *. assert (0 < d < / 1000000) as Hd by (unfold d; lra). replace (/ 4194304) with (4 * d) by (unfold d; lra).
    assert (s * (1 - d) <= g <= s * (1 + d)) as G1 by (replace (s / 16777216) with (s * d) in G' by (unfold d; field); clear - G'; lra). assert (r * (1 - d) <= l <= r * (1 + d)) as L2 by (replace (r / 16777216) with (r * d) in L' by (unfold d; field); clear - L'; lra). clear - Hd G1 L2 RR R0 A LP.
    assert (l * l <= g * ((1 + d) * (1 + d))) as U1 by (rewrite <- RR; nra). assert (g * ((1 - d) * (1 - d)) <= l * l) as U2 by (rewrite <- RR; assert (0 <= r * (1 - d)) by nra; nra). clear - Hd G1 U1 U2 A.
    assert (l * l <= s * ((1 + d) * ((1 + d) * (1 + d)))) as V1 by (assert (0 <= (1 + d) * (1 + d)) by nra; nra). assert (s * ((1 - d) * ((1 - d) * (1 - d))) <= l * l) as V2 by (assert (0 <= (1 - d) * (1 - d)) by nra; nra).
    assert (1 <= (1 + 4 * d) * ((1 - d) * ((1 - d) * (1 - d)))) as W1 by (clear - Hd; nra). assert ((1 - 4 * d) * ((1 + d) * ((1 + d) * (1 + d))) <= 1) as W2 by (clear - Hd; nra).
    split; nra. }
  replace (s / (l * l) - 1) with ((s - l * l) / (l * l)) by (field; unfold R_EPS in L1; lra). unfold Rdiv. rewrite Rabs_mult, (Rabs_right (/ _)) by (left; apply Rinv_0_lt_compat; exact LP).
  apply (Rmult_le_reg_r (l * l)); [exact LP|]. rewrite Rmult_assoc, Rinv_l, Rmult_1_r by lra. exact K.
Qed.
