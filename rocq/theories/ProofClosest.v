(** Closest points on lines, rays, segments and triangles. *)
From Coq Require Import List ZArith QArith Qcanon Bool Lia Lqa Field.
From Verif Require Import Base BaseFacts ModelVec ModelNurbs ModelGjk SpecGjk ProofMinimize ProofSat.
Import ListNotations.
Open Scope Qc_scope.

Lemma v3_eq a b : vx a = vx b -> vy a = vy b -> vz a = vz b -> a = b.
Proof. destruct a, b. cbn. intros -> -> ->. reflexivity. Qed.
Lemma v3_dec (a b : vec3) : {a = b} + {a <> b}.
Proof. decide equality; apply Qc_eq_dec. Qed.
Ltac v3u := unfold v3distSq, v3sq, v3dot, v3cross, v3add, v3sub, v3scale, v3neg, origin in *; cbn [vx vy vz] in *.
Ltac v3ring := v3u; try apply v3_eq; cbn [vx vy vz]; ring.

Lemma sq_nonneg (x : Qc) : 0 <= x * x. Proof. qc_nra. Qed.
Lemma v3sq_nonneg a : 0 <= v3sq a.
Proof. v3u. pose proof (sq_nonneg (vx a)). pose proof (sq_nonneg (vy a)). pose proof (sq_nonneg (vz a)). qc_lra. Qed.
Lemma sq0 (x : Qc) : x * x <= 0 -> x = 0. Proof. intros H. qc_nra. Qed.
Lemma v3sq_pos a : a <> V3 0 0 0 -> 0 < v3sq a.
Proof.
  intros N. destruct (Qc_dec 0 (v3sq a)) as [[H|H]|H]; [exact H| |].
  - exfalso. pose proof (v3sq_nonneg a). qc_lra.
  - exfalso. apply N. v3u. pose proof (sq_nonneg (vx a)). pose proof (sq_nonneg (vy a)). pose proof (sq_nonneg (vz a)).
    apply v3_eq; cbn [vx vy vz]; apply sq0; clear N; qc_lra.
Qed.
Lemma sub_nz a b : a <> b -> v3sub b a <> V3 0 0 0.
Proof.
  intros N E. apply N. unfold v3sub in E. pose proof (f_equal vx E). pose proof (f_equal vy E). pose proof (f_equal vz E). cbn [vx vy vz] in *.
  apply v3_eq; clear E N; qc_lra.
Qed.
Lemma pos_nz (x : Qc) : 0 < x -> x <> 0. Proof. intros H E. rewrite E in H. revert H. apply Qcle_not_lt, Qcle_refl. Qed.
Lemma qdiv_ok a b : b <> 0 -> qdiv a b = Ok (a / b).
Proof. intros H. unfold qdiv. destruct (Qceqb_spec b 0); [contradiction|reflexivity]. Qed.
Lemma div_range a b : 0 < b -> 0 <= a -> a <= b -> 0 <= a / b /\ a / b <= 1.
Proof.
  intros B A L. pose proof (Qcdiv_mul_pos a b B) as E. set (t := a / b) in *. clearbody t. split; apply Qcnot_lt_le; intros C.
  - pose proof (Qcmul_pos (- t) b ltac:(clear - C; qc_lra) B). qc_lra.
  - pose proof (Qcmul_pos (t - 1) b ltac:(clear - C; qc_lra) B). qc_lra.
Qed.

(** ** projection *)
Lemma projection_ok a b : b <> V3 0 0 0 -> vector_projection a b = Ok (v3scale b (v3dot a b / v3sq b)).
Proof.
  intros N. pose proof (pos_nz _ (v3sq_pos b N)) as NZ. unfold vector_projection. cbv zeta. unfold v3sq in NZ. rewrite qdiv_ok by exact NZ. cbn [bind]. f_equal.
  unfold v3scale, v3dot, v3sq. apply v3_eq; cbn [vx vy vz]; field; exact NZ.
Qed.
Lemma projection_zero a : vector_projection a (V3 0 0 0) = UB. Proof. reflexivity. Qed.

(** parametrised distance *)
Lemma dist_param q s d t0 t : 0 <= v3dot (v3sub (v3add s (v3scale d t0)) q) d * (t - t0) ->
  v3distSq (v3add s (v3scale d t0)) q <= v3distSq (v3add s (v3scale d t)) q.
Proof.
  intros H. pose proof (Qcmul_nonneg _ _ (sq_nonneg (t - t0)) (v3sq_nonneg d)).
  assert (v3distSq (v3add s (v3scale d t)) q = v3distSq (v3add s (v3scale d t0)) q + (1 + 1) * (v3dot (v3sub (v3add s (v3scale d t0)) q) d * (t - t0)) + (t - t0) * (t - t0) * v3sq d) as -> by v3ring.
  set (x := v3dot _ d * _) in *. set (y := (t - t0) * (t - t0) * v3sq d) in *. clearbody x y. qc_lra.
Qed.
Lemma foot q s d : d <> V3 0 0 0 -> v3dot (v3sub (v3add s (v3scale d (v3dot (v3sub q s) d / v3sq d))) q) d = 0.
Proof.
  intros N. pose proof (pos_nz _ (v3sq_pos d N)) as NZ. set (t := _ / v3sq d). assert (t * v3sq d = v3dot (v3sub q s) d) as E by (unfold t; field; exact NZ). clearbody t.
  transitivity (t * v3sq d - v3dot (v3sub q s) d); [v3ring|]. rewrite E. ring.
Qed.
Lemma v3add_comm a b : v3add a b = v3add b a. Proof. v3ring. Qed.

Lemma line_nearest : forall q a b, a <> b -> exists p, closest_on_line q a b = Ok p /\ nearest (on_line a b) q p.
Proof.
  intros q a b N. apply sub_nz in N. unfold closest_on_line. rewrite projection_ok by exact N. cbn [bind]. eexists. split; [reflexivity|].
  rewrite v3add_comm. split; [eexists; reflexivity|]. intros x (t & ->). apply dist_param. rewrite foot by exact N.
  rewrite Qcmult_0_l. apply Qcle_refl.
Qed.
Lemma ray_nearest : forall q s d, d <> V3 0 0 0 -> 0 <= v3dot (v3sub q s) d ->
  exists p, closest_on_ray q s d = Ok p /\ nearest (on_ray s d) q p.
Proof.
  intros q s d N H. unfold closest_on_ray. rewrite projection_ok by exact N. cbn [bind]. eexists. split; [reflexivity|].
  rewrite v3add_comm. split.
  - eexists. split; [|reflexivity]. pose proof (v3sq_pos d N) as P. apply Qcnot_lt_le. intros C.
    pose proof (Qcmul_pos _ _ (proj1 (Qclt_minus_iff _ _) C) P) as D. rewrite Qcplus_0_l in D. replace (- (v3dot (v3sub q s) d / v3sq d) * v3sq d) with (- (v3dot (v3sub q s) d / v3sq d * v3sq d)) in D by ring. rewrite Qcdiv_mul_pos in D by exact P. qc_lra.
  - intros x (t & _ & ->). apply dist_param. rewrite foot by exact N. rewrite Qcmult_0_l. apply Qcle_refl.
Qed.
(** the function treats the ray as a line *)
Lemma ray_line : forall q s d, d <> V3 0 0 0 -> exists p, closest_on_ray q s d = Ok p /\ nearest (on_line s (v3add s d)) q p.
Proof.
  intros q s d N. assert (v3sub (v3add s d) s = d) as E by v3ring. unfold closest_on_ray. rewrite projection_ok by exact N. cbn [bind]. eexists. split; [reflexivity|].
  rewrite (v3add_comm (v3scale _ _) s). split; [unfold on_line; rewrite E; eexists; reflexivity|]. intros x (t & ->). rewrite E. apply dist_param. rewrite foot by exact N.
  rewrite Qcmult_0_l. apply Qcle_refl.
Qed.

(** ** segments *)
Lemma segment_form a b t : v3add (v3scale a (1 - t)) (v3scale b t) = v3add a (v3scale (v3sub b a) t). Proof. v3ring. Qed.
Lemma clamp_cases x : (x < 0 /\ qclamp x 0 1 = 0) \/ (1 < x /\ qclamp x 0 1 = 1) \/ (0 <= x /\ x <= 1 /\ qclamp x 0 1 = x).
Proof. unfold qclamp. destruct (Qcltb_spec x 0); [auto|]. destruct (Qcltb_spec 1 x); [auto|]. right. right. qc_push. repeat split; assumption. Qed.
Lemma clamp_nearest x t : 0 <= t -> t <= 1 -> 0 <= (qclamp x 0 1 - x) * (t - qclamp x 0 1).
Proof.
  intros A B. destruct (clamp_cases x) as [(H & ->)|[(H & ->)|(H & K & ->)]].
  - apply Qcmul_nonneg; qc_lra.
  - replace ((1 - x) * (t - 1)) with ((x - 1) * (1 - t)) by ring. apply Qcmul_nonneg; qc_lra.
  - replace ((x - x) * (t - x)) with 0 by ring. apply Qcle_refl.
Qed.
Lemma clamp_range x : 0 <= qclamp x 0 1 /\ qclamp x 0 1 <= 1.
Proof. destruct (clamp_cases x) as [(H & ->)|[(H & ->)|(H & K & ->)]]; split; qc_lra. Qed.

Lemma segm_nearest : forall a b, a <> b -> exists p, closest_on_segm a b = Ok p /\ nearest (on_segment a b) origin p.
Proof.
  intros a b N. apply sub_nz in N. pose proof (v3sq_pos _ N) as P. pose proof (pos_nz _ P) as NZ. unfold closest_on_segm. cbv zeta. rewrite qdiv_ok by exact NZ. cbn [bind]. eexists. split; [reflexivity|].
  set (t0 := _ / _). assert (t0 * v3sq (v3sub b a) = - v3dot a (v3sub b a)) as E by (unfold t0; field; exact NZ). clearbody t0. split.
  - exists (qclamp t0 0 1). destruct (clamp_range t0). rewrite segment_form. auto.
  - intros x (t & T0 & T1 & ->). rewrite segment_form. apply dist_param. pose proof (clamp_nearest t0 t T0 T1) as C.
    replace (v3dot (v3sub (v3add a (v3scale (v3sub b a) (qclamp t0 0 1))) origin) (v3sub b a)) with (qclamp t0 0 1 * v3sq (v3sub b a) + v3dot a (v3sub b a)) by v3ring.
    replace (v3dot a (v3sub b a)) with (- (t0 * v3sq (v3sub b a))) by (rewrite E; ring).
    replace ((qclamp t0 0 1 * v3sq (v3sub b a) + - (t0 * v3sq (v3sub b a))) * (t - qclamp t0 0 1)) with (v3sq (v3sub b a) * ((qclamp t0 0 1 - t0) * (t - qclamp t0 0 1))) by ring.
    apply Qcmul_nonneg; [apply Qclt_le_weak; exact P|exact C].
Qed.
Lemma segm_degenerate : forall a, closest_on_segm a a = UB.
Proof. intros a. unfold closest_on_segm. cbv zeta. replace (v3sq (v3sub a a)) with 0 by v3ring. reflexivity. Qed.

(** with a point: only for segments of length one *)
Lemma segm_from_unit : forall q a b, v3sq (v3sub b a) = 1 -> exists p, closest_on_segm_from q a b = Ok p /\ nearest (on_segment a b) q p.
Proof.
  intros q a b U. assert (v3sub b a <> V3 0 0 0) as N. { intros E. rewrite E in U. discriminate U. }
  set (t0 := v3dot (v3sub b a) (v3sub q a)).
  assert (closest_on_segm_from q a b = Ok (v3add a (v3scale (v3sub b a) (qclamp t0 0 1)))) as ->.
  { unfold closest_on_segm_from, qclamp. cbv zeta. fold t0. destruct (t0 <? 0); [f_equal; v3ring|]. destruct (1 <? t0); [f_equal; v3ring|].
    rewrite projection_ok by exact N. cbn [bind]. rewrite U, v3add_comm. f_equal. f_equal. f_equal. unfold t0. transitivity (v3dot (v3sub q a) (v3sub b a)); [field; discriminate|v3ring]. }
  eexists. split; [reflexivity|]. split.
  - exists (qclamp t0 0 1). destruct (clamp_range t0). rewrite segment_form. auto.
  - intros x (t & T0 & T1 & ->). rewrite segment_form. apply dist_param. pose proof (clamp_nearest t0 t T0 T1) as C.
    replace (v3dot (v3sub (v3add a (v3scale (v3sub b a) (qclamp t0 0 1))) q) (v3sub b a)) with (qclamp t0 0 1 * v3sq (v3sub b a) - t0) by (unfold t0; v3ring).
    rewrite U, Qcmult_1_r. exact C.
Qed.

(** ** triangles *)
(** with the notation x = ab.ao, y = ac.ao, L = ab.ab, M = ac.ac, k = ab.ac *)
Definition good (L M k x y v w : Qc) : Prop :=
  0 <= v /\ 0 <= w /\ v + w <= 1 /\
  let al := - x + v * L + w * k in let be := - y + v * k + w * M in
  v * al + w * be <= 0 /\ v * al + w * be <= al /\ v * al + w * be <= be.

Lemma kkt a b c v w : good (v3sq (v3sub b a)) (v3sq (v3sub c a)) (v3dot (v3sub b a) (v3sub c a)) (v3dot (v3sub b a) (v3neg a)) (v3dot (v3sub c a) (v3neg a)) v w ->
  nearest (in_triangle a b c) origin (v3add (v3add a (v3scale (v3sub b a) v)) (v3scale (v3sub c a) w)).
Proof.
  intros (V & W & VW & H). cbv zeta in H. set (p := v3add _ _). destruct H as (Ha & Hb & Hc).
  assert (v3dot p (v3sub b a) = - v3dot (v3sub b a) (v3neg a) + v * v3sq (v3sub b a) + w * v3dot (v3sub b a) (v3sub c a)) as E1 by (unfold p; v3ring).
  assert (v3dot p (v3sub c a) = - v3dot (v3sub c a) (v3neg a) + v * v3dot (v3sub b a) (v3sub c a) + w * v3sq (v3sub c a)) as E2 by (unfold p; v3ring).
  rewrite <- E1, <- E2 in *. assert (v3dot p p = v3dot p a + (v * v3dot p (v3sub b a) + w * v3dot p (v3sub c a))) as E by (unfold p at 2; v3ring).
  assert (v3dot p (v3sub b a) = v3dot p b - v3dot p a) as F1 by (clear; v3ring). assert (v3dot p (v3sub c a) = v3dot p c - v3dot p a) as F2 by (clear; v3ring).
  set (T := v * _ + w * _) in *. clearbody T. rewrite F1, F2 in *. split.
  - exists (1 - v - w), v, w. split; [qc_lra|]. split; [exact V|]. split; [exact W|]. split; [ring|]. unfold p. v3ring.
  - intros x (r & s & t & R & S & T0 & Sum & Ex).
    assert (v3dot p p <= v3dot p x) as D.
    { replace (v3dot p x) with (r * v3dot p a + s * v3dot p b + t * v3dot p c) by (rewrite Ex; clear; v3ring).
      pose proof (Qcmul_nonneg r (v3dot p a - v3dot p p) R ltac:(clear - E Ha; qc_lra)).
      pose proof (Qcmul_nonneg s (v3dot p b - v3dot p p) S ltac:(clear - E Hb; qc_lra)).
      pose proof (Qcmul_nonneg t (v3dot p c - v3dot p p) T0 ltac:(clear - E Hc; qc_lra)).
      assert (r = 1 - s - t) as Er by (clear - Sum; qc_lra). rewrite Er in *. qc_lra. }
    pose proof (v3sq_nonneg (v3sub x p)) as Q. replace (v3distSq x origin) with (v3sq (v3sub x p) + (1 + 1) * v3dot p x - v3dot p p) by (clear; v3ring).
    replace (v3distSq p origin) with (v3dot p p) by (clear; v3ring). clear - D Q. qc_lra.
Qed.

Lemma slope L M k X Y : 0 < L -> k * k <= L * M -> L < k -> 0 < X -> 0 < Y -> L * Y <= k * X -> (M - k) * X <= (k - L) * Y ->
  L * Y < k * X \/ (M - k) * X < (k - L) * Y -> False.
Proof.
  intros L0 D0 K HX HY A B ST.
  assert (0 <= X * (L * M - k * k)) as R by (apply Qcmul_nonneg; clear - HX D0; qc_lra). destruct ST as [ST|ST].
  - assert (0 < (k - L) * (k * X - L * Y)) as P by (apply Qcmul_pos; clear - K ST; qc_lra).
    assert (0 <= L * ((k - L) * Y - (M - k) * X)) as Q by (apply Qcmul_nonneg; clear - L0 B; qc_lra). clear - P Q R. qc_lra.
  - assert (0 <= (k - L) * (k * X - L * Y)) as P by (apply Qcmul_nonneg; clear - K A; qc_lra).
    assert (0 < L * ((k - L) * Y - (M - k) * X)) as Q by (apply Qcmul_pos; clear - L0 ST; qc_lra). clear - P Q R. qc_lra.
Qed.

Definition outAB L k x y : Prop := L * y - k * x <= 0 -> x < 0 \/ L < x.
Definition notA (x y : Qc) : Prop := 0 < x \/ 0 < y.
Definition notB (L k x y : Qc) : Prop := x < L \/ x - L < y - k.
Definition det L M k : Qc := L * M - k * k.
Definition outBC L M k x y : Prop := (x - L) * (y - M) - (x - k) * (y - k) <= 0 -> y - k < x - L \/ x - k < y - M.

Lemma vc_pos L M k x y : 0 < L -> 0 <= M -> k * k <= L * M -> notA x y -> notB L k x y -> notB M k y x -> outAB L k x y -> outAB M k y x -> outBC L M k x y ->
  0 < L * y - k * x.
Proof.
  intros L0 M0 D0 A B C AB AC BC. apply Qcnot_le_lt. intros V. destruct (AB V) as [X|X].
  - destruct A as [A|A]; [clear - A X; qc_lra|]. assert (k < 0) as K.
    { apply Qcnot_le_lt. intros K. pose proof (Qcmul_nonneg k (- x) K ltac:(clear - X; qc_lra)). pose proof (Qcmul_pos L y L0 A). clear - V H H0. qc_lra. }
    destruct (Qcltb_spec y M) as [Y|Y].
    + assert (0 < M * x - k * y) as W.
      { apply Qcnot_le_lt. intros W. destruct (AC W) as [H|H]; clear - H A Y; qc_lra. }
      pose proof (Qcmul_nonneg (k * x - L * y) (- (k * y)) ltac:(clear - V; qc_lra) ltac:(pose proof (Qcmul_pos (- k) y ltac:(clear - K; qc_lra) A) as Z; clear - Z; qc_lra)) as P.
      pose proof (Qcmul_pos (M * x - k * y) (L * y) W (Qcmul_pos L y L0 A)) as Q.
      pose proof (Qcmul_nonneg (L * M - k * k) (- x * y) ltac:(clear - D0; qc_lra) (Qclt_le_weak _ _ (Qcmul_pos (- x) y ltac:(clear - X; qc_lra) A))) as R.
      clear - P Q R. qc_lra.
    + destruct C as [C|C]; [contradiction|]. apply Qcnot_lt_le in Y.
      destruct (BC) as [H|H]; [|clear - A X K L0 H; qc_lra|clear - C H; qc_lra].
      pose proof (Qcmul_nonneg (L - x) (y - M) ltac:(clear - L0 X; qc_lra) ltac:(clear - Y; qc_lra)) as P.
      pose proof (Qcmul_nonneg (x - k) (y - k) ltac:(clear - C Y; qc_lra) ltac:(clear - A K; qc_lra)) as Q. clear - P Q. qc_lra.
  - destruct B as [B|B]; [clear - B X; qc_lra|].
    assert (L * (y - k) <= k * (x - L)) as V' by (clear - V; qc_lra).
    assert (L < k) as K.
    { apply Qcnot_le_lt. intros K. pose proof (Qcmul_nonneg (L - k) (x - L) ltac:(clear - K; qc_lra) ltac:(clear - X; qc_lra)) as P.
      pose proof (Qcmul_pos L ((y - k) - (x - L)) L0 ltac:(clear - B; qc_lra)) as Q. clear - P Q V'. qc_lra. }
    destruct (Qcltb_spec (x - k) (y - M)) as [Z|Z].
    + destruct C as [C|C]; [|clear - C Z; qc_lra].
      pose proof (Qcmul_pos (k - L) (k - x) ltac:(clear - K; qc_lra) ltac:(clear - Z C; qc_lra)) as P.
      pose proof (Qcmul_pos L ((y - M) - (x - k)) L0 ltac:(clear - Z; qc_lra)) as Q. clear - P Q V' D0. qc_lra.
    + apply Qcnot_lt_le in Z. assert ((M - k) * (x - L) < (k - L) * (y - k)) as ST.
      { apply Qcnot_le_lt. intros F. destruct BC as [H|H]; [clear - F; qc_lra|clear - H B; qc_lra|clear - H Z; qc_lra]. }
      apply (slope L M k (x - L) (y - k) L0 D0 K); [clear - X; qc_lra|clear - B X; qc_lra|exact V'|clear - ST; qc_lra|right; exact ST].
Qed.
Lemma va_pos L M k x y : 0 < L -> 0 < M -> k * k <= L * M -> notB L k x y -> notB M k y x -> outBC L M k x y ->
  0 < L * y - k * x -> 0 < M * x - k * y -> 0 < (x - L) * (y - M) - (x - k) * (y - k).
Proof.
  assert (forall L M k x y, 0 < L -> 0 <= M -> k * k <= L * M -> notB L k x y -> 0 < L * y - k * x -> (x - L) * (y - M) - (x - k) * (y - k) <= 0 -> y - k < x - L -> False) as G.
  { clear. intros L M k x y L0 M0 D0 B V A H. destruct B as [B|B]; [|clear - B H; qc_lra].
    assert (L < k) as K.
    { apply Qcnot_le_lt. intros K. pose proof (Qcmul_nonneg (L - k) (L - x) ltac:(clear - K; qc_lra) ltac:(clear - B; qc_lra)) as P.
      pose proof (Qcmul_pos L ((x - L) - (y - k)) L0 ltac:(clear - H; qc_lra)) as Q. clear - P Q V. qc_lra. }
    apply (slope L M k (L - x) (k - y) L0 D0 K); [clear - B; qc_lra|clear - B H; qc_lra|clear - V; qc_lra|clear - A; qc_lra|left; clear - V; qc_lra]. }
  intros L0 M0 D0 B C BC V W. apply Qcnot_le_lt. intros A. destruct (BC A) as [H|H].
  - exact (G L M k x y L0 (Qclt_le_weak _ _ M0) D0 B V A H).
  - apply (G M L k y x M0 (Qclt_le_weak _ _ L0)); [clear - D0; qc_lra|exact C|exact W|clear - A; qc_lra|exact H].
Qed.

Lemma lagrange a b : v3sq a * v3sq b - v3dot a b * v3dot a b = v3sq (v3cross a b). Proof. v3ring. Qed.

Lemma triangle_nearest : forall a b c, a <> b -> exists p, closest_on_triangle a b c = Ok p /\ nearest (in_triangle a b c) origin p.
Proof.
  intros a b c NAB. pose proof (v3sq_nonneg (v3cross (v3sub b a) (v3sub c a))) as PT. rewrite <- lagrange in PT.
  pose proof (v3sq_pos _ (sub_nz _ _ NAB)) as L0. pose proof (v3sq_nonneg (v3sub c a)) as M1. pose proof (v3sq_nonneg (v3sub c b)) as S1.
  assert (v3sq (v3sub c a) = 0 -> v3dot (v3sub b a) (v3sub c a) = 0 /\ v3dot (v3sub c a) (v3neg a) = 0) as MZ.
  { intros E. destruct (v3_dec c a) as [->|N]; [split; v3ring|]. exfalso. apply (pos_nz _ (v3sq_pos _ (sub_nz _ _ (fun e => N (eq_sym e))))), E. }
  assert (v3sq (v3sub c b) = 0 -> v3dot (v3sub b a) (v3sub c a) = v3sq (v3sub b a) /\ v3dot (v3sub c a) (v3neg a) = v3dot (v3sub b a) (v3neg a)) as SZ.
  { intros E. destruct (v3_dec c b) as [->|N]; [split; v3ring|]. exfalso. apply (pos_nz _ (v3sq_pos _ (sub_nz _ _ (fun e => N (eq_sym e))))), E. }
  assert (v3sq (v3sub c b) = v3sq (v3sub b a) + v3sq (v3sub c a) - (v3dot (v3sub b a) (v3sub c a) + v3dot (v3sub b a) (v3sub c a))) as ES by v3ring.
  unfold closest_on_triangle. cbv zeta.
  assert (v3dot (v3sub b a) (v3neg b) = v3dot (v3sub b a) (v3neg a) - v3sq (v3sub b a)) as -> by v3ring.
  assert (v3dot (v3sub c a) (v3neg b) = v3dot (v3sub c a) (v3neg a) - v3dot (v3sub b a) (v3sub c a)) as -> by v3ring.
  assert (v3dot (v3sub b a) (v3neg c) = v3dot (v3sub b a) (v3neg a) - v3dot (v3sub b a) (v3sub c a)) as -> by v3ring.
  assert (v3dot (v3sub c a) (v3neg c) = v3dot (v3sub c a) (v3neg a) - v3sq (v3sub c a)) as -> by v3ring.
  pose proof (kkt a b c) as KKT.
  set (x := v3dot (v3sub b a) (v3neg a)) in *. set (y := v3dot (v3sub c a) (v3neg a)) in *. set (k := v3dot (v3sub b a) (v3sub c a)) in *.
  set (L := v3sq (v3sub b a)) in *. set (M := v3sq (v3sub c a)) in *. set (S := v3sq (v3sub c b)) in *. clearbody x y k L M S.
  assert (forall v w r, good L M k x y v w -> v3add (v3add a (v3scale (v3sub b a) v)) (v3scale (v3sub c a) w) = r -> exists p, Ok r = Ok p /\ nearest (in_triangle a b c) origin p) as Fin.
  { intros v w r G <-. eexists. split; [reflexivity|]. apply KKT, G. }
  clear KKT. assert (k * k <= L * M) as D0 by (clear - PT; qc_lra).
  assert (forall (P Q : bool), P && Q = false -> P = false \/ Q = false) as ANDF by (intros [] []; auto).
  destruct ((x <=? 0) && (y <=? 0)) eqn:EA.
  { apply andb_true_iff in EA. destruct EA as (EA1 & EA2). qcb. apply (Fin 0 0); [|v3ring]. unfold good. cbv zeta. repeat apply conj; clear - EA1 EA2; qc_lra. }
  destruct ((0 <=? x - L) && (y - k <=? x - L)) eqn:EB.
  { apply andb_true_iff in EB. destruct EB as (EB1 & EB2). qcb. apply (Fin 1 0); [|v3ring]. unfold good. cbv zeta. repeat apply conj; clear - EB1 EB2; qc_lra. }
  destruct ((x * (y - k) - (x - L) * y <=? 0) && (0 <=? x) && (x - L <=? 0)) eqn:EAB.
  { rewrite !andb_true_iff in EAB. destruct EAB as ((H1 & H2) & H3). qcb. replace (x - (x - L)) with L by ring. rewrite qdiv_ok by (apply pos_nz; exact L0). cbn [bind].
    destruct (div_range x L L0 H2 ltac:(clear - H3; qc_lra)) as (R1 & R2). pose proof (Qcdiv_mul_pos x L L0) as E. set (v := x / L) in *. clearbody v.
    apply (Fin v 0); [|v3ring]. subst x. unfold good. cbv zeta.
    assert (y <= v * k) as Y. { apply Qcnot_lt_le. intros C. pose proof (Qcmul_pos L (y - v * k) L0 ltac:(clear - C; qc_lra)) as Z. clear - Z H1. qc_lra. }
    repeat apply conj; clear - R1 R2 Y; qc_lra. }
  assert (notA x y) as NA by (apply ANDF in EA; unfold notA; destruct EA; qcb; auto).
  assert (notB L k x y) as NB by (apply ANDF in EB; unfold notB; destruct EB as [E|E]; qcb; [left; clear - E; qc_lra|right; exact E]).
  assert (outAB L k x y) as OAB.
  { intros V. apply ANDF in EAB. destruct EAB as [E|E]; [apply ANDF in E; destruct E as [E|E]|]; qcb; [exfalso; clear - V E; qc_lra|left; exact E|right; clear - E; qc_lra]. }
  assert (0 < M) as M0.
  { destruct (Qceqb_spec M 0) as [E|E]; [|destruct (Qc_neq_or _ _ E); [exfalso; clear - M1 H; qc_lra|assumption]]. exfalso. destruct (MZ E) as (-> & ->).
    destruct (OAB ltac:(clear; qc_lra)) as [H|H]; [destruct NA as [A|A]; clear - A H; qc_lra|destruct NB as [A|A]; clear - A H; qc_lra]. }
  assert (0 < S) as S0'.
  { destruct (Qceqb_spec S 0) as [E|E]; [|destruct (Qc_neq_or _ _ E); [exfalso; clear - S1 H; qc_lra|assumption]]. exfalso. destruct (SZ E) as (-> & ->).
    destruct (OAB ltac:(clear; qc_lra)) as [H|H]; [destruct NA as [A|A]; clear - A H; qc_lra|destruct NB as [A|A]; clear - A H; qc_lra]. }
  destruct ((0 <=? y - M) && (x - k <=? y - M)) eqn:EC.
  { apply andb_true_iff in EC. destruct EC as (EC1 & EC2). qcb. apply (Fin 0 1); [|v3ring]. unfold good. cbv zeta. repeat apply conj; clear - EC1 EC2; qc_lra. }
  destruct (((x - k) * y - x * (y - M) <=? 0) && (0 <=? y) && (y - M <=? 0)) eqn:EAC.
  { rewrite !andb_true_iff in EAC. destruct EAC as ((H1 & H2) & H3). qcb. replace (y - (y - M)) with M by ring. rewrite qdiv_ok by (apply pos_nz; exact M0). cbn [bind].
    destruct (div_range y M M0 H2 ltac:(clear - H3; qc_lra)) as (R1 & R2). pose proof (Qcdiv_mul_pos y M M0) as E. set (w := y / M) in *. clearbody w.
    apply (Fin 0 w); [|v3ring]. subst y. unfold good. cbv zeta.
    assert (x <= w * k) as Y. { apply Qcnot_lt_le. intros C. pose proof (Qcmul_pos M (x - w * k) M0 ltac:(clear - C; qc_lra)) as Z. clear - Z H1. qc_lra. }
    repeat apply conj; clear - R1 R2 Y; qc_lra. }
  assert (0 < L + M - (k + k)) as S0 by (rewrite <- ES; exact S0').
  destruct (((x - L) * (y - M) - (x - k) * (y - k) <=? 0) && (0 <=? y - k - (x - L)) && (0 <=? x - k - (y - M))) eqn:EBC.
  { rewrite !andb_true_iff in EBC. destruct EBC as ((H1 & H2) & H3). qcb. replace (y - k - (x - L) + (x - k - (y - M))) with (L + M - (k + k)) by ring. rewrite qdiv_ok by (apply pos_nz; exact S0). cbn [bind].
    destruct (div_range (y - k - (x - L)) _ S0 H2 ltac:(clear - H3; qc_lra)) as (R1 & R2). pose proof (Qcdiv_mul_pos (y - k - (x - L)) _ S0) as E. set (w := (y - k - (x - L)) / _) in *. clearbody w.
    apply (Fin (1 - w) w); [|v3ring]. unfold good. cbv zeta.
    assert (- x + (1 - w) * L + w * k = - y + (1 - w) * k + w * M) as EQ by (clear - E; qc_lra).
    assert (- x + (1 - w) * L + w * k <= 0) as Y.
    { apply Qcnot_lt_le. intros C. pose proof (Qcmul_pos _ _ S0 C) as Z. set (S2 := L + M - (k + k)) in *.
      assert (S2 * (- x + (1 - w) * L + w * k) = S2 * (L - x) + (w * S2) * (k - L)) as F by ring. rewrite F, E in Z. unfold S2 in Z. clear - Z H1. qc_lra. }
    rewrite <- EQ. set (al := - x + (1 - w) * L + w * k) in *. clearbody al. replace ((1 - w) * al + w * al) with al by ring. repeat apply conj; clear - R1 R2 Y; qc_lra. }
  assert (notB M k y x) as NC by (apply ANDF in EC; unfold notB; destruct EC as [E|E]; qcb; [left; clear - E; qc_lra|right; exact E]).
  assert (outAB M k y x) as OAC.
  { intros V. apply ANDF in EAC. destruct EAC as [E|E]; [apply ANDF in E; destruct E as [E|E]|]; qcb; [exfalso; clear - V E; qc_lra|left; exact E|right; clear - E; qc_lra]. }
  assert (outBC L M k x y) as OBC.
  { intros V. apply ANDF in EBC. destruct EBC as [E|E]; [apply ANDF in E; destruct E as [E|E]|]; qcb; [exfalso; clear - V E; qc_lra|left; clear - E; qc_lra|right; clear - E; qc_lra]. }
  pose proof (vc_pos L M k x y L0 M1 D0 NA NB NC OAB OAC OBC) as VC.
  assert (0 < M * x - k * y) as VB.
  { apply (vc_pos M L k y x M0 (Qclt_le_weak _ _ L0)); [clear - D0; qc_lra|destruct NA; [right|left]; assumption|exact NC|exact NB|exact OAC|exact OAB|].
    intros V. destruct OBC as [E|E]; [clear - V; qc_lra|right; exact E|left; exact E]. }
  pose proof (va_pos L M k x y L0 M0 D0 NB NC OBC VC VB) as VA.
  replace ((x - L) * (y - M) - (x - k) * (y - k) + ((x - k) * y - x * (y - M)) + (x * (y - k) - (x - L) * y)) with (det L M k) by (unfold det; ring).
  assert (0 < det L M k) as DP by (unfold det; clear - VA VB VC; qc_lra). pose proof (pos_nz _ DP) as NZ. rewrite qdiv_ok by exact NZ. cbn [bind].
  replace ((x - k) * y - x * (y - M)) with (M * x - k * y) by ring. replace (x * (y - k) - (x - L) * y) with (L * y - k * x) by ring.
  eapply Fin; [|reflexivity].
  set (v := (M * x - k * y) * (1 / det L M k)). set (w := (L * y - k * x) * (1 / det L M k)).
  assert (v * det L M k = M * x - k * y) as Ev by (unfold v; field; exact NZ). assert (w * det L M k = L * y - k * x) as Ew by (unfold w; field; exact NZ).
  assert (- x + v * L + w * k = 0) as A0.
  { apply (Qcmult_integral_l (det L M k)); [exact NZ|]. rewrite ?(Qcmult_comm (det L M k)). transitivity (- x * det L M k + (v * det L M k) * L + (w * det L M k) * k); [ring|]. rewrite Ev, Ew. unfold det. ring. }
  assert (- y + v * k + w * M = 0) as B0.
  { apply (Qcmult_integral_l (det L M k)); [exact NZ|]. rewrite ?(Qcmult_comm (det L M k)). transitivity (- y * det L M k + (v * det L M k) * k + (w * det L M k) * M); [ring|]. rewrite Ev, Ew. unfold det. ring. }
  assert (0 <= v) as V0. { apply Qclt_le_weak. apply (mul_pos_cancel (det L M k)); [exact DP|]. rewrite Qcmult_comm, Ev. exact VB. }
  assert (0 <= w) as W0. { apply Qclt_le_weak. apply (mul_pos_cancel (det L M k)); [exact DP|]. rewrite Qcmult_comm, Ew. exact VC. }
  assert (0 <= 1 - v - w) as U0. { apply Qclt_le_weak. apply (mul_pos_cancel (det L M k)); [exact DP|]. replace (det L M k * (1 - v - w)) with (det L M k - v * det L M k - w * det L M k) by ring. rewrite Ev, Ew. unfold det. clear - VA. qc_lra. }
  clearbody v w. unfold good. cbv zeta. rewrite A0, B0. repeat apply conj; try assumption; clear - U0; qc_lra.
Qed.

(** the version with a point returns the closest point relative to that point *)
Lemma triangle_from_nearest : forall q a b c, a <> b ->
  exists p, closest_on_triangle_from q a b c = Ok p /\ nearest (in_triangle a b c) q (v3add p q).
Proof.
  intros q a b c H. destruct (triangle_nearest (v3sub a q) (v3sub b q) (v3sub c q)) as (p & E & (T & N)).
  - intros E. apply H. apply v3_eq; [pose proof (f_equal vx E) as F|pose proof (f_equal vy E) as F|pose proof (f_equal vz E) as F]; clear E; unfold v3sub in F; cbn [vx vy vz] in F; clear - F; qc_lra.
  - exists p. split; [exact E|]. split.
    + destruct T as (u & v & w & U & V & W & S & ->). exists u, v, w. repeat apply conj; try assumption. assert (u = 1 - v - w) as -> by (clear - S; qc_lra). v3ring.
    + intros x (u & v & w & U & V & W & S & ->). replace (v3distSq (v3add p q) q) with (v3distSq p origin) by v3ring.
      eapply Qcle_trans; [apply (N (v3sub (v3add (v3add (v3scale a u) (v3scale b v)) (v3scale c w)) q))|].
      * exists u, v, w. repeat apply conj; try assumption. assert (u = 1 - v - w) as -> by (clear - S; qc_lra). v3ring.
      * match goal with |- ?x <= ?y => assert (x = y) as -> by v3ring end. apply Qcle_refl.
Qed.

(** with a repeated first vertex the result is that vertex or not a number *)
Lemma triangle_repeat : forall a c, closest_on_triangle a a c = Ok a \/ closest_on_triangle a a c = UB.
Proof.
  intros a c. unfold closest_on_triangle. cbv zeta. assert (forall p, v3dot (v3sub a a) p = 0) as Z by (intros; v3ring). rewrite !Z.
  destruct (v3dot (v3sub c a) (v3neg a) <=? 0); [left; reflexivity|right]. cbn [andb].
  replace (0 <=? 0) with true by reflexivity. cbn [andb]. replace (0 * v3dot (v3sub c a) (v3neg a) - 0 * v3dot (v3sub c a) (v3neg a)) with 0 by ring. reflexivity.
Qed.
