(** Proofs about vec.h. *)
From Coq Require Import List ZArith Reals Bool Lra Lia Psatz.
From Verif Require Import Base LoopFacts ModelPlane ModelNewton ModelVecOps SpecPlane SpecVecOps.
Import ListNotations.
Open Scope R_scope.

(** ** angles *)
Lemma sq_pos a : a <> 0 -> 0 < a * a. Proof. intros H. nra. Qed.
Lemma sqrt_ratio x y : 0 < x -> sqrt (1 + (y / x)²) = sqrt (x * x + y * y) / x.
Proof.
  intros H. replace (1 + (y / x)²) with ((x * x + y * y) / (x * x)) by (unfold Rsqr; field; lra).
  rewrite sqrt_div_alt by nra. rewrite sqrt_square by lra. reflexivity.
Qed.
Lemma sqrt_ratio_neg x y : x < 0 -> sqrt (1 + (y / x)²) = sqrt (x * x + y * y) / - x.
Proof.
  intros H. replace (1 + (y / x)²) with ((x * x + y * y) / (- x * - x)) by (unfold Rsqr; field; lra).
  rewrite sqrt_div_alt by nra. rewrite sqrt_square by lra. reflexivity.
Qed.
Lemma sqrt_nz x y : x <> 0 -> sqrt (x * x + y * y) <> 0.
Proof. intros H E. apply sqrt_eq_0 in E; nra. Qed.
Lemma atan2_polar y x : sqrt (x * x + y * y) * cos (ratan2 y x) = x /\ sqrt (x * x + y * y) * sin (ratan2 y x) = y.
Proof.
  unfold ratan2. destruct (Rlt_dec 0 x) as [P|P].
  - rewrite cos_atan, sin_atan, (sqrt_ratio x y P). pose proof (sqrt_nz x y ltac:(lra)). split; field; split; lra.
  - destruct (Rlt_dec x 0) as [N|N].
    + pose proof (sqrt_nz x y ltac:(lra)) as Z. pose proof (sqrt_ratio_neg x y N) as E.
      destruct (Rlt_dec y 0); [rewrite cos_minus, sin_minus|rewrite cos_plus, sin_plus]; rewrite cos_PI, sin_PI, cos_atan, sin_atan, E; split; field; split; lra.
    + assert (x = 0) as -> by lra. replace (0 * 0 + y * y) with (y * y) by ring.
      destruct (Rlt_dec 0 y) as [H|H]; [|destruct (Rlt_dec y 0) as [H'|H']].
      * rewrite cos_PI2, sin_PI2, sqrt_square by lra. split; ring.
      * rewrite cos_neg, sin_neg, cos_PI2, sin_PI2. replace (y * y) with (- y * - y) by ring. rewrite sqrt_square by lra. split; ring.
      * assert (y = 0) as -> by lra. rewrite Rmult_0_r, sqrt_0. split; ring.
Qed.
Lemma atan2_range y x : - PI < ratan2 y x <= PI.
Proof.
  pose proof PI_RGT_0 as P0. unfold ratan2. pose proof (atan_bound (y / x)) as B.
  destruct (Rlt_dec 0 x); [lra|]. destruct (Rlt_dec x 0) as [N|N].
  - destruct (Rlt_dec y 0) as [Y|Y].
    + assert (0 < y / x) as Q. { replace (y / x) with (- y / - x) by (field; lra). apply Rdiv_lt_0_compat; lra. }
      apply atan_increasing in Q. rewrite atan_0 in Q. lra.
    + assert (y / x <= 0) as Q. { replace (y / x) with (- (y / - x)) by (field; lra). assert (0 <= y / - x); [|lra]. apply Rmult_le_pos; [lra|]. left. apply Rinv_0_lt_compat. lra. }
      assert (atan (y / x) <= 0). { destruct Q as [Q| ->]; [|rewrite atan_0; lra]. apply atan_increasing in Q. rewrite atan_0 in Q. lra. } lra.
  - destruct (Rlt_dec 0 y); [lra|]. destruct (Rlt_dec y 0); lra.
Qed.
Lemma atan2_upper y x : 0 <= y -> 0 <= ratan2 y x.
Proof.
  intros Y. pose proof PI_RGT_0 as P0. unfold ratan2. pose proof (atan_bound (y / x)) as B.
  destruct (Rlt_dec 0 x) as [X|X].
  - assert (0 <= y / x) as Q by (apply Rmult_le_pos; [lra|]; left; apply Rinv_0_lt_compat; lra).
    destruct Q as [Q| <-]; [|rewrite atan_0; lra]. apply atan_increasing in Q. rewrite atan_0 in Q. lra.
  - destruct (Rlt_dec x 0); [destruct (Rlt_dec y 0); lra|]. destruct (Rlt_dec 0 y); [lra|]. destruct (Rlt_dec y 0); lra.
Qed.

(** an angle is known from its sine and cosine *)
Lemma angle_unique a b : cos a = cos b -> sin a = sin b -> Rabs (a - b) < 2 * PI -> a = b.
Proof.
  intros C D H. pose proof PI_RGT_0 as P0.
  assert (cos (a - b) = 1) as E. { rewrite cos_minus, C, D. pose proof (sin2_cos2 b) as Q. unfold Rsqr in Q. lra. }
  set (h := (a - b) / 2). assert (a - b = 2 * h) as Eh by (unfold h; field). rewrite Eh in E, H. rewrite cos_2a_sin in E.
  assert (sin h = 0) as S0 by nra. assert (- PI < h < PI) as B. { apply Rabs_def2 in H. lra. }
  assert (h = 0); [|lra]. destruct (Rtotal_order h 0) as [L|[L|L]]; [exfalso|assumption|exfalso].
  - assert (0 < sin (- h)) by (apply sin_gt_0; lra). rewrite sin_neg in *. lra.
  - assert (0 < sin h) by (apply sin_gt_0; lra). lra.
Qed.
Lemma atan2_of_polar r a : 0 < r -> - PI < a <= PI -> ratan2 (r * sin a) (r * cos a) = a.
Proof.
  intros R0 A. destruct (atan2_polar (r * sin a) (r * cos a)) as [C D].
  assert (sqrt (r * cos a * (r * cos a) + r * sin a * (r * sin a)) = r) as E.
  { pose proof (sin2_cos2 a) as Q. unfold Rsqr in Q. replace (r * cos a * (r * cos a) + r * sin a * (r * sin a)) with (r * r * (sin a * sin a + cos a * cos a)) by ring.
    rewrite Q, Rmult_1_r. apply sqrt_square. lra. }
  rewrite E in C, D. pose proof (atan2_range (r * sin a) (r * cos a)) as B.
  apply angle_unique; [apply Rmult_eq_reg_l with r; lra|apply Rmult_eq_reg_l with r; lra|]. apply Rabs_def1; lra.
Qed.

Lemma v3r_eq a b c x y z : a = x -> b = y -> c = z -> RV a b c = RV x y z. Proof. intros; subst; reflexivity. Qed.
Lemma spherical_round p : of_spherical (to_spherical p) = p.
Proof.
  destruct p as [x y z]. unfold of_spherical, to_spherical. cbn [rx ry rz]. set (q := x * x + y * y).
  assert (0 <= q) as Q by (unfold q; nra). destruct (atan2_polar (sqrt q) z) as [C D].
  assert (z * z + sqrt q * sqrt q = q + z * z) as E by (rewrite sqrt_sqrt by assumption; ring). rewrite E in C, D.
  destruct (atan2_polar y x) as [C' D']. fold q in C', D'. rewrite D. apply v3r_eq; assumption.
Qed.
Lemma spherical_ranges p : rx (to_spherical p) = norm p /\ 0 <= ry (to_spherical p) <= PI /\ - PI < rz (to_spherical p) <= PI.
Proof.
  unfold to_spherical, norm. cbn [rx ry rz]. split; [reflexivity|]. split; [|apply atan2_range].
  split; [apply atan2_upper; apply sqrt_pos|apply atan2_range].
Qed.
Lemma spherical_back r theta phi : 0 < r -> 0 < theta < PI -> - PI < phi <= PI -> to_spherical (of_spherical (RV r theta phi)) = RV r theta phi.
Proof.
  intros R0 T F. unfold to_spherical, of_spherical. cbn [rx ry rz]. assert (0 < sin theta) as S0 by (apply sin_gt_0; lra).
  pose proof (sin2_cos2 phi) as Q. pose proof (sin2_cos2 theta) as Q'. unfold Rsqr in Q, Q'.
  assert (r * sin theta * cos phi * (r * sin theta * cos phi) + r * sin theta * sin phi * (r * sin theta * sin phi) = r * sin theta * (r * sin theta)) as E.
  { replace (r * sin theta * cos phi * (r * sin theta * cos phi) + r * sin theta * sin phi * (r * sin theta * sin phi)) with (r * sin theta * (r * sin theta) * (sin phi * sin phi + cos phi * cos phi)) by ring. rewrite Q. ring. }
  assert (0 < r * sin theta) as P by (apply Rmult_lt_0_compat; assumption).
  rewrite E. apply v3r_eq.
  - replace (r * sin theta * (r * sin theta) + r * cos theta * (r * cos theta)) with (r * r * (sin theta * sin theta + cos theta * cos theta)) by ring. rewrite Q', Rmult_1_r. apply sqrt_square. lra.
  - rewrite sqrt_square by lra. apply atan2_of_polar; [assumption|lra].
  - apply atan2_of_polar; assumption.
Qed.
Lemma norm_pos p : p <> RV 0 0 0 -> 0 < norm p.
Proof.
  intros N. unfold norm. apply sqrt_lt_R0. destruct p as [x y z]. cbn [rx ry rz].
  assert (0 <= x * x) by nra. assert (0 <= y * y) by nra. assert (0 <= z * z) by nra.
  destruct (Req_dec x 0) as [->|X]; [|pose proof (sq_pos x X); lra]. destruct (Req_dec y 0) as [->|Y]; [|pose proof (sq_pos y Y); lra].
  destruct (Req_dec z 0) as [->|Z]; [congruence|pose proof (sq_pos z Z); lra].
Qed.
Lemma angles_direction p : rvscale (of_angles (to_angles p)) (norm p) = p.
Proof.
  pose proof (spherical_round p) as E. destruct p as [x y z]. unfold of_spherical, to_spherical, of_angles, to_angles, rvscale, norm in *. cbn [rx ry rz r2x r2y] in *.
  set (n := sqrt (x * x + y * y + z * z)) in *. injection E as A B C. apply v3r_eq; [etransitivity; [|exact A]|etransitivity; [|exact B]|etransitivity; [|exact C]]; ring.
Qed.
Lemma angles_ranges p : 0 <= r2x (to_angles p) <= PI /\ - PI < r2y (to_angles p) <= PI.
Proof. exact (proj2 (spherical_ranges p)). Qed.
Lemma angles_all xyz tp : to_angles_all xyz tp = Ok (map to_angles xyz).
Proof.
  unfold to_angles_all. set (t0 := firstn (length xyz) tp ++ repeat (RV2 0 0) (length xyz - length tp)).
  assert (length t0 = length xyz) as L by (unfold t0; rewrite app_length, firstn_length, repeat_length; lia). clearbody t0.
  destruct (for_up_inv (fun i s => length s = length xyz /\ firstn i s = firstn i (map to_angles xyz)) (fun i tp0 => p <- get xyz i ;; set_nth tp0 i (to_angles p)) (length xyz) 0 t0) as (s & E & H1 & H2).
  - split; [assumption|reflexivity].
  - intros i s Hlo Hhi [H1 H2]. rewrite (get_ok xyz i (RV 0 0 0)) by lia. cbn [bind].
    destruct (set_nth_ok s i (to_angles (nth i xyz (RV 0 0 0))) ltac:(lia)) as (s' & Es & Ls & Hs).
    exists s'. split; [exact Es|]. split; [lia|].
    apply (nth_ext _ _ (RV2 0 0) (RV2 0 0)). { rewrite !firstn_length, map_length. lia. }
    intros j Hj. rewrite firstn_length in Hj. rewrite !nth_firstn_lt by lia.
    rewrite Hs. destruct (Nat.eqb_spec j i) as [->|N].
    + rewrite (nth_indep _ _ (to_angles (RV 0 0 0))) by (rewrite map_length; lia). rewrite map_nth. reflexivity.
    + assert (nth j (firstn i s) (RV2 0 0) = nth j (firstn i (map to_angles xyz)) (RV2 0 0)) as Q by (rewrite H2; reflexivity). rewrite !nth_firstn_lt in Q by lia. exact Q.
  - rewrite E. f_equal. rewrite Nat.add_0_l in H2. rewrite <- (firstn_all s). rewrite H1, H2. rewrite <- (map_length to_angles xyz). apply firstn_all.
Qed.

(** ** equality *)
Lemma near_iff a b : near a b = true <-> Rabs (a - b) < R_EPS.
Proof. unfold near. destruct (Rlt_dec _ _); split; intros; try assumption; try reflexivity; try discriminate; contradiction. Qed.
Lemma same_iff a b : same a b = true <-> a = b.
Proof. unfold same. destruct (Req_EM_T a b); split; intros; try assumption; try reflexivity; try discriminate; contradiction. Qed.
Lemma eps_pos : 0 < R_EPS. Proof. unfold R_EPS. lra. Qed.
Lemma near_refl a : near a a = true. Proof. apply near_iff. rewrite Rminus_diag_eq, Rabs_R0 by reflexivity. exact eps_pos. Qed.
Lemma near_sym a b : near a b = near b a.
Proof. unfold near. rewrite Rabs_minus_sym. reflexivity. Qed.
Lemma r3eq_refl a : r3eqb a a = true. Proof. unfold r3eqb. rewrite !near_refl. reflexivity. Qed.
Lemma r3eq_sym a b : r3eqb a b = r3eqb b a. Proof. unfold r3eqb. rewrite (near_sym (rx a)), (near_sym (ry a)), (near_sym (rz a)). reflexivity. Qed.
Lemma r3eq_close a b : r3eqb a b = true <-> (Rabs (rx a - rx b) < R_EPS /\ Rabs (ry a - ry b) < R_EPS /\ Rabs (rz a - rz b) < R_EPS).
Proof. unfold r3eqb. rewrite !andb_true_iff, !near_iff. tauto. Qed.
Lemma r3eq_not_transitive : exists a b c, r3eqb a b = true /\ r3eqb b c = true /\ r3eqb a c = false.
Proof.
  exists (RV 0 0 0), (RV (R_EPS * 3 / 4) 0 0), (RV (R_EPS * 3 / 2) 0 0). pose proof eps_pos.
  split; [apply r3eq_close; cbn [rx ry rz]; repeat split; apply Rabs_def1; lra|]. split; [apply r3eq_close; cbn [rx ry rz]; repeat split; apply Rabs_def1; lra|].
  destruct (r3eqb _ _) eqn:E; [|reflexivity]. exfalso. apply r3eq_close in E. cbn [rx ry rz] in E. destruct E as [E _]. apply Rabs_def2 in E. lra.
Qed.
Lemma r4eq_weight : exists a b, r4eqb a b = true /\ r4w a = 1 /\ r4w b = 2 /\ r4to3 a = Ok (RV 2 0 0) /\ r4to3 b = Ok (RV 1 0 0).
Proof.
  exists (RV4 2 0 0 1), (RV4 2 0 0 2). split; [unfold r4eqb; cbn [r4x r4y r4z]; rewrite !near_refl; reflexivity|]. split; [reflexivity|]. split; [reflexivity|].
  unfold r4to3, rdiv. cbn [r4x r4y r4z r4w]. destruct (Req_EM_T 1 0); [lra|]. destruct (Req_EM_T 2 0); [lra|]. cbn [bind].
  split; f_equal; apply v3r_eq; field.
Qed.
Lemma r3eq2_height : exists a b, r3eq2 a b = true /\ rz a = 5 /\ r2x b = rx a /\ r2y b = ry a.
Proof. exists (RV 1 2 5), (RV2 1 2). unfold r3eq2. cbn. assert (same 1 1 = true) as -> by (apply same_iff; reflexivity). assert (same 2 2 = true) as -> by (apply same_iff; reflexivity). auto. Qed.

(** ** products *)
Lemma cross_facts a b : rvdot (rvcross a b) a = 0 /\ rvdot (rvcross a b) b = 0 /\ rvcross b a = rvneg (rvcross a b) /\
  rvsq (rvcross a b) = rvsq a * rvsq b - rvdot a b * rvdot a b.
Proof.
  destruct a as [a1 a2 a3], b as [b1 b2 b3]. unfold rvdot, rvcross, rvneg, rvsq. cbn [rx ry rz]. repeat split; try ring. apply v3r_eq; ring.
Qed.
Lemma cross_zero a b : rvcross a b = RV 0 0 0 <-> parallel3 a b.
Proof.
  destruct a as [a1 a2 a3], b as [b1 b2 b3]. unfold rvcross, parallel3, rvscale. cbn [rx ry rz]. split.
  - intros E. injection E as E1 E2 E3.
    destruct (Req_dec a1 0) as [->|N1]; [destruct (Req_dec a2 0) as [->|N2]; [destruct (Req_dec a3 0) as [->|N3]|]|].
    + exists 1, 0. split; [left; lra|]. apply v3r_eq; ring.
    + exists b3, a3. split; [right; assumption|]. apply v3r_eq; lra.
    + exists b2, a2. split; [right; assumption|]. apply v3r_eq; lra.
    + exists b1, a1. split; [right; assumption|]. apply v3r_eq; lra.
  - intros (j & k & N & E). injection E as E1 E2 E3. destruct N as [N|N].
    + assert (forall u v u' v' p q, u * j = p * k -> v * j = q * k -> u' = p -> v' = q -> u * v' - v * u' = 0) as K.
      { intros u v u' v' p q A B -> ->. apply Rmult_eq_reg_l with j; [|assumption]. replace (j * (u * q - v * p)) with (u * j * q - v * j * p) by ring. rewrite A, B. ring. }
      apply v3r_eq; eapply K; try eassumption; reflexivity.
    + assert (forall u v u' v' p q, u * j = p * k -> v * j = q * k -> u' = p -> v' = q -> u * v' - v * u' = 0) as K.
      { intros u v u' v' p q A B -> ->. apply Rmult_eq_reg_l with k; [|assumption]. replace (k * (u * q - v * p)) with (u * (q * k) - v * (p * k)) by ring. rewrite <- A, <- B. ring. }
      apply v3r_eq; eapply K; try eassumption; reflexivity.
Qed.
Lemma cross4_witness : exists a b, r4w a = 1 /\ r4w b = 1 /\ r4cross a b = RV4 0 0 1 1 /\ r4cross_into a b = Ok (RV4 0 0 0 1).
Proof.
  exists (RV4 1 0 0 1), (RV4 1 1 0 1). unfold r4cross, r4cross_into, r4to3, rdiv. cbn [r4x r4y r4z r4w].
  destruct (Req_EM_T 1 0); [lra|]. cbn [bind rx ry rz]. repeat split; f_equal; try f_equal; field.
Qed.

(** ** projection *)
Lemma dot_self_nz b : b <> RV 0 0 0 -> rvdot b b <> 0.
Proof. intros N E. pose proof (norm_pos b N) as P. unfold norm in P. unfold rvdot in E. rewrite E, sqrt_0 in P. lra. Qed.
Lemma project_spec a b : b <> RV 0 0 0 -> exists q, rproject a b = Ok q /\ vector_projection a b = Ok q /\ is_multiple q b /\ rvdot (rvsub a q) b = 0 /\
  forall k, rvsq (rvsub a q) <= rvsq (rvsub a (rvscale b k)).
Proof.
  intros N. pose proof (dot_self_nz b N) as Z. exists (rvscale b (rvdot a b / rvdot b b)). unfold rproject, rdiv.
  destruct (Req_EM_T (rvdot b b) 0) as [|_]; [contradiction|]. split; [reflexivity|].
  assert (0 < rvdot b b) as P. { unfold rvdot in *. pose proof (Rle_0_sqr (rx b)). pose proof (Rle_0_sqr (ry b)). pose proof (Rle_0_sqr (rz b)). unfold Rsqr in *. lra. }
  split; [|split; [|split]].
  - unfold vector_projection, rdiv. destruct a as [a1 a2 a3], b as [b1 b2 b3]. unfold rvdot, rvscale in *. cbn [rx ry rz] in *.
    destruct (Req_EM_T (b1 ^ 2 + b2 ^ 2 + b3 ^ 2) 0) as [E|_]; [exfalso; apply Z; rewrite <- E; ring|]. cbn [bind]. f_equal. apply v3r_eq; field; (split; [assumption|intros E; apply Z; rewrite <- E; ring]) || (intros E; apply Z; rewrite <- E; ring).
  - eexists. reflexivity.
  - destruct a as [a1 a2 a3], b as [b1 b2 b3]. unfold rvdot, rvscale, rvsub in *. cbn [rx ry rz] in *. field. exact Z.
  - intros k. set (t := rvdot a b / rvdot b b).
    assert (rvsq (rvsub a (rvscale b k)) - rvsq (rvsub a (rvscale b t)) = rvdot b b * (k - t) * (k - t)) as E.
    { assert (t * rvdot b b = rvdot a b) as T by (unfold t; field; assumption). clearbody t.
      destruct a as [a1 a2 a3], b as [b1 b2 b3]. unfold rvdot, rvsq, rvscale, rvsub in *. cbn [rx ry rz] in *.
      transitivity ((b1 * b1 + b2 * b2 + b3 * b3) * (k * k - t * t) - 2 * (k - t) * (a1 * b1 + a2 * b2 + a3 * b3)); [ring|]. rewrite <- T. ring. }
    assert (0 <= rvdot b b * (k - t) * (k - t)). { rewrite Rmult_assoc. apply Rmult_le_pos; [lra|]. pose proof (Rle_0_sqr (k - t)) as Q. exact Q. } lra.
Qed.
Lemma project_zero a : rproject a (RV 0 0 0) = UB /\ vector_projection a (RV 0 0 0) = UB.
Proof.
  unfold rproject, vector_projection, rdiv, rvdot. cbn [rx ry rz]. destruct (Req_EM_T (0 * 0 + 0 * 0 + 0 * 0) 0) as [|N]; [|exfalso; apply N; ring].
  destruct (Req_EM_T (0 ^ 2 + 0 ^ 2 + 0 ^ 2) 0) as [|N]; [|exfalso; apply N; ring]. split; reflexivity.
Qed.

(** ** dot_product of arrays *)
Lemma get_none {A} (l : list A) i : (length l <= i)%nat -> get l i = UB.
Proof. intros H. unfold get. destruct (nth_error l i) eqn:E; [|reflexivity]. assert (nth_error l i <> None) as Q by congruence. apply nth_error_Some in Q. lia. Qed.
Lemma for_up_stuck {T} (body : nat -> T -> res T) (P : T -> Prop) count : forall start s, P s ->
  (forall i s, (i < start + count)%nat -> P s -> exists s', body i s = Ok s' /\ P s') -> (forall s, P s -> body (start + count)%nat s = UB) -> for_up (count + 1) start body s = UB.
Proof.
  induction count as [|k IH]; intros start s Hs H1 H2.
  - cbn [Nat.add for_up]. rewrite Nat.add_0_r in H2. rewrite (H2 s Hs). reflexivity.
  - cbn [Nat.add for_up]. destruct (H1 start s ltac:(lia) Hs) as (s' & -> & Hs'). cbn [bind]. apply IH; [assumption| |].
    + intros i s0 Hi. apply H1. lia.
    + intros s0 Hs0. replace (S start + k)%nat with (start + S k)%nat by lia. apply H2. assumption.
Qed.
Lemma dot_product_overrun v size xs ys zs result : length xs = size -> length ys = size -> length zs = size -> length result = size ->
  dot_product v size xs ys zs result = UB.
Proof.
  intros X Y Z L. apply (for_up_stuck _ (fun r => length r = size)); [assumption| |].
  - intros i s Hi Hs. rewrite (get_ok xs i 0), (get_ok ys i 0), (get_ok zs i 0) by lia. cbn [bind].
    destruct (set_nth_ok s i (rx v * nth i xs 0 + ry v * nth i ys 0 + rz v * nth i zs 0) ltac:(lia)) as (s' & E & L' & _). exists s'. split; [exact E|lia].
  - intros s Hs. rewrite get_none by lia. reflexivity.
Qed.

(** ** distances *)
Lemma dist2_spec a b : rdist2 a b = norm (rvsub a b) * norm (rvsub a b).
Proof.
  unfold rdist2, norm, rvsq. rewrite sqrt_sqrt; [reflexivity|]. pose proof (Rle_0_sqr (rx (rvsub a b))). pose proof (Rle_0_sqr (ry (rvsub a b))). pose proof (Rle_0_sqr (rz (rvsub a b))). unfold Rsqr in *. lra.
Qed.
Lemma norm_x x : 0 <= x -> norm (RV x 0 0) = x.
Proof. intros H. unfold norm. cbn [rx ry rz]. replace (x * x + 0 * 0 + 0 * 0) with (x * x) by ring. apply sqrt_square. assumption. Qed.
Lemma dist_witness : rdist (RV 4 0 0) (RV 0 0 0) = Some 2 /\ norm (rvsub (RV 4 0 0) (RV 0 0 0)) = 4 /\ rdist (RV 0 0 0) (RV 4 0 0) = None /\
  rdist (RV 1 0 0) (RV 0 1 0) = Some 0 /\ rmag2 (RV 4 0 0) = Some 2 /\ rmag2 (RV (-1) 0 0) = None.
Proof.
  assert (sqrt 4 = 2) as S4. { replace 4 with (2 * 2) by ring. apply sqrt_square. lra. }
  unfold rdist, rmag2, rsqrt, rvsub. cbn [rx ry rz].
  split; [|split; [|split; [|split; [|split]]]].
  - destruct (Rlt_dec _ 0); [lra|]. replace (4 - 0 + (0 - 0) + (0 - 0)) with 4 by ring. rewrite S4. reflexivity.
  - rewrite !Rminus_0_r. apply norm_x. lra.
  - destruct (Rlt_dec _ 0); [reflexivity|lra].
  - destruct (Rlt_dec _ 0); [lra|]. replace (1 - 0 + (0 - 1) + (0 - 0)) with 0 by ring. rewrite sqrt_0. reflexivity.
  - destruct (Rlt_dec 4 0); [lra|]. rewrite S4. f_equal. ring.
  - destruct (Rlt_dec (-1) 0); [reflexivity|lra].
Qed.

(** ** collinearity *)
Lemma r2len_pos a : a <> RV2 0 0 -> 0 < r2len a.
Proof.
  intros N. unfold r2len, r2dot. apply sqrt_lt_R0. destruct a as [x y]. cbn [r2x r2y]. assert (0 <= x * x) by nra. assert (0 <= y * y) by nra.
  destruct (Req_dec x 0) as [->|X]; [|pose proof (sq_pos x X); lra]. destruct (Req_dec y 0) as [->|Y]; [congruence|pose proof (sq_pos y Y); lra].
Qed.
Lemma r2len_sq a : r2len a * r2len a = r2dot a a.
Proof. unfold r2len. apply sqrt_sqrt. unfold r2dot. nra. Qed.
Lemma abs_one x : Rabs x = 1 <-> x * x = 1.
Proof. split; intros H; [unfold Rabs in H; destruct (Rcase_abs x); nra|]. assert ((Rabs x - 1) * (Rabs x + 1) = 0) as Q. { pose proof (Rsqr_abs x) as E. unfold Rsqr in E. nra. } pose proof (Rabs_pos x). apply Rmult_integral in Q. lra. Qed.
Lemma unit2_ok a : a <> RV2 0 0 -> r2unit a = Ok (RV2 (r2x a / r2len a) (r2y a / r2len a)).
Proof. intros N. unfold r2unit. pose proof (r2len_pos a N). destruct (Req_EM_T (r2len a) 0); [lra|reflexivity]. Qed.
Lemma collinear2_spec a b : a <> RV2 0 0 -> b <> RV2 0 0 -> exists r, r2collinear a b = Ok r /\ (r = true <-> parallel2 a b).
Proof.
  intros Na Nb. unfold r2collinear. rewrite (unit2_ok a Na), (unit2_ok b Nb). cbn [bind]. eexists. split; [reflexivity|].
  pose proof (r2len_pos a Na) as Pa. pose proof (r2len_pos b Nb) as Pb. pose proof (r2len_sq a) as Sa. pose proof (r2len_sq b) as Sb.
  set (la := r2len a) in *. set (lb := r2len b) in *. clearbody la lb. rewrite same_iff, abs_one. unfold r2dot in *. cbn [r2x r2y].
  destruct a as [a1 a2], b as [b1 b2]. unfold parallel2. cbn [r2x r2y] in *.
  assert ((a1 / la * (b1 / lb) + a2 / la * (b2 / lb)) * (a1 / la * (b1 / lb) + a2 / la * (b2 / lb)) = ((a1 * b1 + a2 * b2) * (a1 * b1 + a2 * b2)) / ((a1 * a1 + a2 * a2) * (b1 * b1 + b2 * b2))) as E.
  { rewrite <- Sa, <- Sb. field. split; lra. }
  rewrite E. assert (0 < (a1 * a1 + a2 * a2) * (b1 * b1 + b2 * b2)) as P by (rewrite <- Sa, <- Sb; apply Rmult_lt_0_compat; apply Rmult_lt_0_compat; assumption).
  assert (forall x y, 0 < y -> (x / y = 1 <-> x = y)) as D. { intros x y H. split; [intros Q; replace x with (x / y * y) by (field; lra); rewrite Q; ring|intros ->; field; lra]. }
  rewrite (D _ _ P).
  assert ((a1 * b1 + a2 * b2) * (a1 * b1 + a2 * b2) = (a1 * a1 + a2 * a2) * (b1 * b1 + b2 * b2) <-> a1 * b2 - a2 * b1 = 0) as K.
  { split; [intros Q; assert ((a1 * b2 - a2 * b1) * (a1 * b2 - a2 * b1) = 0) as Q2 by nra; apply Rmult_integral in Q2; destruct Q2; assumption|].
    intros Q. assert ((a1 * b2 - a2 * b1) * (a1 * b2 - a2 * b1) = 0) as Q2 by (rewrite Q; ring). nra. }
  rewrite K. split.
  - intros Q. destruct (Req_dec a1 0) as [->|N1].
    + exists b2, a2. split; [right; intros ->; apply Na; reflexivity|]. split; lra.
    + exists b1, a1. split; [right; assumption|]. split; lra.
  - intros (j & k & N & E1 & E2). destruct N as [N|N]; [apply Rmult_eq_reg_l with j|apply Rmult_eq_reg_l with k]; try assumption; rewrite Rmult_0_r.
    + replace (j * (a1 * b2 - a2 * b1)) with (j * a1 * b2 - j * a2 * b1) by ring. rewrite E1, E2. ring.
    + replace (k * (a1 * b2 - a2 * b1)) with (a1 * (k * b2) - a2 * (k * b1)) by ring. rewrite <- E1, <- E2. ring.
Qed.
Lemma collinear2_zero a b : a = RV2 0 0 \/ b = RV2 0 0 -> r2collinear a b = Throw EInvalidArgument.
Proof.
  assert (r2unit (RV2 0 0) = Throw EInvalidArgument) as U. { unfold r2unit, r2len, r2dot. cbn [r2x r2y]. replace (0 * 0 + 0 * 0) with 0 by ring. rewrite sqrt_0. destruct (Req_EM_T 0 0); [reflexivity|contradiction]. }
  unfold r2collinear. intros [->| ->]; [rewrite U; reflexivity|]. unfold r2unit at 1. destruct (Req_EM_T (r2len a) 0); [reflexivity|]. cbn [bind]. rewrite U. reflexivity.
Qed.
Lemma collinear3_short fl : float_rounding fl -> exists a, a <> RV 0 0 0 /\ r3collinear fl a a = false.
Proof.
  intros (_ & F & _). exists (RV (/ 2) 0 0). split; [intros E; injection E; lra|].
  assert (fl (/ 4) = / 4) as F4. { replace (/ 4) with (IZR 1 / 2 ^ 2) by (cbn; lra). apply F; lia. }
  assert (fl (/ 2) = / 2) as F2. { replace (/ 2) with (IZR 1 / 2 ^ 1) by (cbn; lra). apply F; lia. }
  assert (rvlength fl (RV (/ 2) 0 0) = / 2) as L. { unfold rvlength, rvsq. cbn [rx ry rz]. replace (/ 2 * / 2 + 0 * 0 + 0 * 0) with (/ 4) by lra. rewrite F4. replace (/ 4) with (/ 2 * / 2) by lra. rewrite sqrt_square by lra. exact F2. }
  assert (rvunit fl (RV (/ 2) 0 0) = RV (/ 2) 0 0) as U. { unfold rvunit. rewrite L. destruct (Rle_dec (/ 2) R_EPS); [reflexivity|]. destruct (Rle_dec (/ 2 - 1) R_EPS) as [|N]; [reflexivity|]. exfalso. apply N. pose proof eps_pos. lra. }
  unfold r3collinear. rewrite U. destruct (same _ 1) eqn:E; [|reflexivity]. apply same_iff in E. exfalso. revert E. unfold rvdot. cbn [rx ry rz].
  replace (/ 2 * / 2 + 0 * 0 + 0 * 0) with (/ 4) by lra. rewrite Rabs_right by lra. lra.
Qed.
Lemma unit3_exact a : 1 + R_EPS < norm a -> rvunit (fun x => x) a = RV (rx a / norm a) (ry a / norm a) (rz a / norm a).
Proof.
  intros H. unfold rvunit, rvlength. change (sqrt (rvsq a)) with (norm a). pose proof eps_pos.
  destruct (Rle_dec (norm a) R_EPS); [lra|]. destruct (Rle_dec (norm a - 1) R_EPS); [lra|reflexivity].
Qed.
Lemma sq0 x : x * x = 0 -> x = 0. Proof. intros H. apply Rmult_integral in H. destruct H; assumption. Qed.
Lemma norm_sq a : norm a * norm a = rvsq a.
Proof. unfold norm, rvsq. apply sqrt_sqrt. destruct a as [x y z]. cbn [rx ry rz]. nra. Qed.
Lemma collinear3_exact a b : 1 + R_EPS < norm a -> 1 + R_EPS < norm b -> (r3collinear (fun x => x) a b = true <-> parallel3 a b).
Proof.
  intros Ha Hb. rewrite <- cross_zero. unfold r3collinear. rewrite (unit3_exact a Ha), (unit3_exact b Hb), same_iff, abs_one.
  pose proof eps_pos as Pe. destruct (cross_facts a b) as (_ & _ & _ & L).
  assert (norm a * norm a = rvsq a) as Sa. { apply norm_sq. }
  assert (norm b * norm b = rvsq b) as Sb. { apply norm_sq. }
  set (la := norm a) in *. set (lb := norm b) in *. clearbody la lb.
  assert (rvdot (RV (rx a / la) (ry a / la) (rz a / la)) (RV (rx b / lb) (ry b / lb) (rz b / lb)) = rvdot a b / (la * lb)) as E by (unfold rvdot; cbn [rx ry rz]; field; split; lra).
  rewrite E. replace (rvdot a b / (la * lb) * (rvdot a b / (la * lb))) with (rvdot a b * rvdot a b / (rvsq a * rvsq b)) by (rewrite <- Sa, <- Sb; field; split; lra).
  assert (0 < rvsq a * rvsq b) as P by (rewrite <- Sa, <- Sb; apply Rmult_lt_0_compat; apply Rmult_lt_0_compat; lra).
  split.
  - intros Q. assert (rvdot a b * rvdot a b = rvsq a * rvsq b) as Q2. { clear L Sa Sb E. set (m := rvsq a * rvsq b) in *. set (n := rvdot a b * rvdot a b) in *. clearbody m n. replace n with (n / m * m) by (field; lra). rewrite Q. ring. }
    rewrite Q2, Rminus_diag_eq in L by reflexivity. destruct (rvcross a b) as [x y z]. unfold rvsq in L. cbn [rx ry rz] in L.
    pose proof (Rle_0_sqr x). pose proof (Rle_0_sqr y). pose proof (Rle_0_sqr z). unfold Rsqr in *.
    apply v3r_eq; apply sq0; lra.
  - intros Q. rewrite Q in L. unfold rvsq in L at 1. cbn [rx ry rz] in L. assert (rvdot a b * rvdot a b = rvsq a * rvsq b) as -> by lra. unfold Rdiv. apply Rinv_r. lra.
Qed.

(** ** vec4 *)
Lemma add4_witness : exists a b r, r4w (r4plus a b) = 2 /\ r4w (r4add a b r) = 0.
Proof. exists (RV4 0 0 0 1), (RV4 0 0 0 1), (RV4 0 0 0 0). unfold r4plus, r4add. cbn. split; lra. Qed.
Lemma add4_others a b r : r4x (r4add a b r) = r4x (r4plus a b) /\ r4y (r4add a b r) = r4y (r4plus a b) /\ r4z (r4add a b r) = r4z (r4plus a b).
Proof. repeat split. Qed.
Lemma dot4_paths : exists a, r4dot a a = 0 /\ r4dot_neon a a = 1 /\ r4sq a = 1.
Proof. exists (RV4 0 0 0 1). unfold r4dot, r4dot_neon, r4sq. cbn. repeat split; lra. Qed.
Lemma unit4_witness fl : float_rounding fl -> exists a u, r4unit fl a = Ok u /\ r4sq u = 409 / 400 /\ r4x u * r4x u + r4y u * r4y u + r4z u * r4z u = 9 / 400.
Proof.
  intros (_ & F & _). exists (RV4 0 3 0 4), (RV4 (0 / (4 * 5)) (3 / (4 * 5)) (0 / (4 * 5)) 1).
  assert (fl 25 = 25) as F25. { replace 25 with (IZR 25 / 2 ^ 0) by (cbn; lra). apply F; lia. }
  assert (fl 5 = 5) as F5. { replace 5 with (IZR 5 / 2 ^ 0) by (cbn; lra). apply F; lia. }
  assert (r4length fl (RV4 0 3 0 4) = 5) as L. { unfold r4length, r4sq. cbn [r4x r4y r4z r4w]. replace (0 * 0 + 3 * 3 + 0 * 0 + 4 * 4) with 25 by lra. rewrite F25. replace 25 with (5 * 5) by lra. rewrite sqrt_square by lra. exact F5. }
  unfold r4unit. rewrite L. assert (R_EPS < 1) by (unfold R_EPS; lra). destruct (Rle_dec 5 R_EPS); [lra|]. destruct (Rle_dec (5 - 1) R_EPS); [lra|].
  unfold rdiv. cbn [r4x r4y r4z r4w]. destruct (Req_EM_T (4 * 5) 0); [lra|]. cbn [bind]. split; [reflexivity|]. unfold r4sq. cbn [r4x r4y r4z r4w]. split; field.
Qed.
Lemma unit4_zero fl : float_rounding fl -> exists a, r4w a = 0 /\ r4unit fl a = UB.
Proof.
  intros (_ & F & _). exists (RV4 3 4 0 0). split; [reflexivity|].
  assert (fl 25 = 25) as F25. { replace 25 with (IZR 25 / 2 ^ 0) by (cbn; lra). apply F; lia. }
  assert (fl 5 = 5) as F5. { replace 5 with (IZR 5 / 2 ^ 0) by (cbn; lra). apply F; lia. }
  assert (r4length fl (RV4 3 4 0 0) = 5) as L. { unfold r4length, r4sq. cbn [r4x r4y r4z r4w]. replace (3 * 3 + 4 * 4 + 0 * 0 + 0 * 0) with 25 by lra. rewrite F25. replace 25 with (5 * 5) by lra. rewrite sqrt_square by lra. exact F5. }
  unfold r4unit. rewrite L. assert (R_EPS < 1) by (unfold R_EPS; lra). destruct (Rle_dec 5 R_EPS); [lra|]. destruct (Rle_dec (5 - 1) R_EPS); [lra|].
  unfold rdiv. cbn [r4x r4y r4z r4w]. destruct (Req_EM_T (0 * 5) 0) as [|N]; [reflexivity|]. exfalso. apply N. ring.
Qed.

(** ** cases *)
Lemma south_pole : to_spherical (RV 0 0 (-1)) = RV 1 PI 0 /\ of_spherical (RV 1 PI 0) = RV 0 0 (-1).
Proof.
  split.
  - unfold to_spherical. cbn [rx ry rz]. replace (0 * 0 + 0 * 0) with 0 by ring. rewrite sqrt_0. replace (0 + -1 * -1) with 1 by ring. rewrite sqrt_1. apply v3r_eq; [reflexivity| |].
    + unfold ratan2. destruct (Rlt_dec 0 (-1)); [lra|]. destruct (Rlt_dec (-1) 0); [|lra]. destruct (Rlt_dec 0 0); [lra|]. replace (0 / -1) with 0 by field. rewrite atan_0. ring.
    + unfold ratan2. destruct (Rlt_dec 0 0); [lra|]. destruct (Rlt_dec 0 0); [lra|]. reflexivity.
  - unfold of_spherical. cbn [rx ry rz]. rewrite sin_PI, cos_PI. apply v3r_eq; ring.
Qed.
Lemma one_two_three : RV 1 2 3 <> RV 0 0 0. Proof. intros E. injection E. lra. Qed.
Lemma two_long : 1 + R_EPS < norm (RV 2 0 0). Proof. rewrite norm_x by lra. unfold R_EPS. lra. Qed.

(** ** products of vec2 and vec4 *)
Lemma r3eq2_iff a b : r3eq2 a b = true <-> r2x b = rx a /\ r2y b = ry a.
Proof. unfold r3eq2. rewrite andb_true_iff, !same_iff. reflexivity. Qed.
Lemma r2cross_facts a b : r2cross b a = - r2cross a b /\ r2cross a b * r2cross a b + r2dot a b * r2dot a b = r2dot a a * r2dot b b /\
  (r2cross a b = 0 <-> parallel2 a b).
Proof.
  split; [unfold r2cross; ring|]. split; [unfold r2cross, r2dot; ring|]. unfold r2cross, parallel2. destruct a as [ax ay], b as [bx by_]. cbn [r2x r2y]. split.
  - intros H. destruct (Req_dec bx 0) as [B0|B0].
    + destruct (Req_dec by_ 0) as [B1|B1].
      * exists 0, 1. subst. repeat split; lra.
      * exists by_, ay. subst bx. split; [left; assumption|]. split; [|ring]. assert (ax * by_ = 0) by lra. lra.
    + exists bx, ax. split; [left; assumption|]. split; [ring|]. lra.
  - intros (j & k & [J|K] & H1 & H2).
    + apply Rmult_eq_reg_l with j; [|assumption]. replace (j * (ax * by_ - ay * bx)) with ((j * ax) * by_ - (j * ay) * bx) by ring. rewrite H1, H2. ring.
    + apply Rmult_eq_reg_l with k; [|assumption]. replace (k * (ax * by_ - ay * bx)) with (ax * (k * by_) - ay * (k * bx)) by ring. rewrite <- H1, <- H2. ring.
Qed.
Lemma r2cross_turn a t l : r2cross a (RV2 (l * (r2x a * cos t - r2y a * sin t)) (l * (r2x a * sin t + r2y a * cos t))) = l * sin t * r2dot a a.
Proof. unfold r2cross, r2dot. cbn [r2x r2y]. ring. Qed.
Lemma r4cross_xyz a b : r4cross a b = (let c := rvcross (RV (r4x a) (r4y a) (r4z a)) (RV (r4x b) (r4y b) (r4z b)) in RV4 (rx c) (ry c) (rz c) 1).
Proof. reflexivity. Qed.
Lemma r4dot_xyz a b : r4dot a b = rvdot (RV (r4x a) (r4y a) (r4z a)) (RV (r4x b) (r4y b) (r4z b)) /\ r4dot_neon a b = r4dot a b + r4w a * r4w b.
Proof. split; [unfold r4dot, rvdot; cbn; ring|unfold r4dot, r4dot_neon; ring]. Qed.
Lemma r4to3_iff a p : r4to3 a = Ok p <-> r4w a <> 0 /\ r4x a = rx p * r4w a /\ r4y a = ry p * r4w a /\ r4z a = rz p * r4w a.
Proof.
  unfold r4to3, rdiv. destruct (Req_EM_T (r4w a) 0) as [E|E]; [split; [discriminate|intros [H _]; contradiction]|]. cbn [bind]. split.
  - intros H. injection H as <-. cbn [rx ry rz]. repeat split; try assumption; field; assumption.
  - intros (_ & X & Y & Z). f_equal. destruct p as [x y z]. cbn [rx ry rz] in *. rewrite X, Y, Z. f_equal; field; assumption.
Qed.
