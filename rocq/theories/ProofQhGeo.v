(** Facts about tetrahedra and triangulated surfaces for the proof of quickhull. *)
From Coq Require Import List Arith Bool ZArith Reals Lra Lia Permutation.
From Verif Require Import Base ModelPlane ModelQuickhull SpecQuickhull.
Import ListNotations.
Local Open Scope R_scope.

(** ** Volumes *)
Ltac vols := unfold vol, rvdot, rvcross, rvsub, rvadd; cbn [rx ry rz].
Lemma vol_rot a b c d : vol b c a d = vol a b c d. Proof. vols. ring. Qed.
Lemma vol_swap a b c d : vol b a c d = - vol a b c d. Proof. vols. ring. Qed.
Lemma vol_swap2 a b c d : vol a b d c = - vol a b c d. Proof. vols. ring. Qed.
Lemma vol_at_a a b c : vol a b c a = 0. Proof. vols. ring. Qed.
Lemma vol_at_b a b c : vol a b c b = 0. Proof. vols. ring. Qed.
Lemma vol_at_c a b c : vol a b c c = 0. Proof. vols. ring. Qed.
(** the three planes through one edge *)
Lemma vol_pluecker a b c e q x : vol a b q x * vol a b c e = vol a b q c * vol a b x e - vol a b q e * vol a b x c.
Proof. vols. ring. Qed.
(** affine in the last argument *)
Definition mix (t : R) (x y : v3r) : v3r := RV ((1 - t) * rx x + t * rx y) ((1 - t) * ry x + t * ry y) ((1 - t) * rz x + t * rz y).
Definition bary (l0 l1 l2 : R) (a b c : v3r) : v3r :=
  RV (l0 * rx a + l1 * rx b + l2 * rx c) (l0 * ry a + l1 * ry b + l2 * ry c) (l0 * rz a + l1 * rz b + l2 * rz c).
Lemma vol_mix a b c t x y : vol a b c (mix t x y) = (1 - t) * vol a b c x + t * vol a b c y.
Proof. unfold mix. vols. ring. Qed.
Lemma vol_bary a b c l0 l1 l2 x y z : l0 + l1 + l2 = 1 -> vol a b c (bary l0 l1 l2 x y z) = l0 * vol a b c x + l1 * vol a b c y + l2 * vol a b c z.
Proof. intros E. replace l0 with (1 - l1 - l2) by lra. unfold bary. vols. ring. Qed.
Definition cr (a b c : v3r) : v3r := rvcross (rvsub b a) (rvsub c a).
Lemma vol_cr a b c d : vol a b c d = rvdot (cr a b c) (rvsub d a). Proof. reflexivity. Qed.
Lemma vol_shift a b c x u : vol a b c (rvadd x u) = vol a b c x + rvdot (cr a b c) u. Proof. unfold cr. vols. ring. Qed.

(** a new facet over the edge of a facet that is seen and one that is not *)
Lemma horizon_combination a b c e q x :
  0 < vol a b c q -> vol b a e q < 0 -> vol a b c e < 0 -> vol a b c x <= 0 -> vol b a e x <= 0 ->
  vol a b q x <= 0 /\ (vol a b q x = 0 -> vol a b c x = 0 /\ vol b a e x = 0).
Proof.
  intros A B C D E. pose proof (vol_pluecker a b c e q x) as PL. rewrite (vol_swap2 a b c q) in PL.
  pose proof (vol_swap a b e q) as S1. pose proof (vol_swap2 a b e q) as S2.
  pose proof (vol_swap a b e x) as S3. pose proof (vol_swap2 a b e x) as S4. pose proof (vol_swap2 a b c x) as S5.
  rewrite S4, S2, S5 in PL. set (F := vol a b c x) in *. set (G := vol b a e x) in *. set (N := vol a b q x) in *.
  assert (N * vol a b c e = - vol a b c q * G + vol b a e q * F) as PL' by (rewrite S1, S3, PL; ring).
  set (k := vol a b c e) in *. set (fq := vol a b c q) in *. set (gq := vol b a e q) in *. clear - A B C D E PL'.
  assert (0 <= - fq * G) as X by nra. assert (0 <= gq * F) as Y by nra.
  split; [nra|]. intros Z. rewrite Z in PL'. assert (- fq * G = 0) as X0 by lra. assert (gq * F = 0) as Y0 by lra.
  split; [apply Rmult_integral in Y0 as [|]; lra|apply Rmult_integral in X0 as [|]; lra].
Qed.

(** a point of the plane of a triangle on the inner side of three other planes
    through its edges is in the triangle *)
Lemma barycentric a b c y : cr a b c <> RV 0 0 0 -> vol a b c y = 0 -> exists l0 l1 l2, l0 + l1 + l2 = 1 /\ y = bary l0 l1 l2 a b c.
Proof.
  intros N E. set (n := cr a b c) in *. set (w := rvsub y a).
  assert (0 < rvsq n) as P.
  { unfold rvsq. destruct (Req_dec (rx n) 0) as [x|x]; [|nra]. destruct (Req_dec (ry n) 0) as [y0|y0]; [|nra]. destruct (Req_dec (rz n) 0) as [z|z]; [|nra].
    exfalso. apply N. destruct n as [nx ny nz]; cbn in x, y0, z. congruence. }
  set (l1 := rvdot n (rvcross w (rvsub c a)) / rvsq n). set (l2 := rvdot n (rvcross (rvsub b a) w) / rvsq n).
  exists (1 - l1 - l2), l1, l2. split; [ring|].
  assert (forall f : v3r -> R, (f = rx \/ f = ry \/ f = rz) -> f y = f a + l1 * (f b - f a) + l2 * (f c - f a)) as H.
  { intros f Hf. assert (rvsq n * (f y - f a) = rvdot n (rvcross w (rvsub c a)) * (f b - f a) + rvdot n (rvcross (rvsub b a) w) * (f c - f a) + vol a b c y * f n) as I
      by (destruct Hf as [->|[->| ->]]; unfold n, w, cr, rvsq; vols; ring).
    rewrite E in I. unfold l1, l2. apply (Rmult_eq_reg_l (rvsq n)); [|lra]. field_simplify; [|lra]. lra. }
  destruct y as [y1 y2 y3]. unfold bary. pose proof (H rx (or_introl eq_refl)) as H1. pose proof (H ry (or_intror (or_introl eq_refl))) as H2. pose proof (H rz (or_intror (or_intror eq_refl))) as H3.
  cbn [rx ry rz] in H1, H2, H3. f_equal; lra.
Qed.
Lemma cr_zero_vol a b c d : cr a b c = RV 0 0 0 -> vol a b c d = 0.
Proof. intros E. rewrite vol_cr, E. unfold rvdot. cbn [rx ry rz]. ring. Qed.

(** leaving a region along a line: [al] and [be] are the values of the facets'
    functions at the two ends *)
Lemma exit_point (al be : nat -> R) : forall L, (forall f, In f L -> al f <= 0) -> (exists f, In f L /\ 0 < be f) ->
  exists K, In K L /\ 0 < be K /\ exists t, 0 <= t < 1 /\ (1 - t) * al K + t * be K = 0 /\ forall f, In f L -> (1 - t) * al f + t * be f <= 0.
Proof.
  induction L as [|g L IH]; intros A (f & I & B); [destruct I|].
  destruct (Rlt_dec 0 (be g)) as [G|G].
  - set (tg := - al g / (be g - al g)). assert (al g <= 0) as Ag by (apply A; left; reflexivity).
    assert (0 <= tg < 1) as T.
    { unfold tg. split; [apply Rmult_le_pos; [lra|left; apply Rinv_0_lt_compat; lra]|]. apply (Rmult_lt_reg_r (be g - al g)); [lra|]. unfold Rdiv. rewrite Rmult_assoc, Rinv_l by lra. lra. }
    assert ((1 - tg) * al g + tg * be g = 0) as Z by (unfold tg; field; lra).
    destruct (Exists_dec (fun f => 0 < be f) L (fun f => Rlt_dec 0 (be f))) as [X|X].
    + apply Exists_exists in X as (f' & I' & B'). destruct IH as (K & IK & BK & t & Tt & Zt & All); [intros; apply A; right; assumption|exists f'; auto|].
      destruct (Rle_dec ((1 - t) * al g + t * be g) 0) as [C|C].
      * exists K. split; [right; exact IK|]. split; [exact BK|]. exists t. split; [exact Tt|]. split; [exact Zt|]. intros f1 [<-|I1]; [exact C|apply All; exact I1].
      * exists g. split; [left; reflexivity|]. split; [exact G|]. exists tg. split; [exact T|]. split; [exact Z|]. intros f1 [<-|I1]; [lra|].
        assert (tg <= t) as TT. { apply Rnot_lt_le. intros Y. apply C. assert ((1 - t) * al g + t * be g <= (1 - tg) * al g + tg * be g) by nra. lra. }
        specialize (All _ I1). specialize (A _ (or_intror I1)). destruct (Rle_dec (be f1) (al f1)) as [Q|Q]; [nra|].
        assert ((1 - tg) * al f1 + tg * be f1 <= (1 - t) * al f1 + t * be f1) by nra. lra.
    + exists g. split; [left; reflexivity|]. split; [exact G|]. exists tg. split; [exact T|]. split; [exact Z|]. intros f1 [<-|I1]; [lra|].
      assert (be f1 <= 0) by (apply Rnot_lt_le; intros Y; apply X, Exists_exists; exists f1; auto). specialize (A _ (or_intror I1)). nra.
  - destruct I as [->|I]; [contradiction|]. destruct IH as (K & IK & BK & t & Tt & Zt & All); [intros; apply A; right; assumption|exists f; auto|].
    exists K. split; [right; exact IK|]. split; [exact BK|]. exists t. split; [exact Tt|]. split; [exact Zt|]. intros f1 [<-|I1]; [|apply All; exact I1].
    specialize (A g (or_introl eq_refl)). nra.
Qed.
