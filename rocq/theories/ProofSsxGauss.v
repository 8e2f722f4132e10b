(** The Gauss map of a Bezier patch is the field of its normals. *)
From Coq Require Import List ZArith QArith Qcanon Bool Lia Lqa.
From Verif Require Import Base BaseFacts LoopFacts ModelVec ModelAabb ModelNurbs ModelSurface ModelBinom ModelNumeric ModelMonomial ModelBoundary ModelGjk ModelCsx ModelSsx
  SpecNurbs SpecCurve SpecSurface SpecMonomial SpecNumeric SpecCcx SpecGjk SpecCsx SpecSsx
  ProofBspline ProofNurbs ProofCurve ProofMinimize ProofDecompose ProofSurfaceSums ProofSurface ProofSurfaceOps ProofSurfaceTop ProofMatrix ProofMonomial ProofMonomialTop ProofMonomialDiff ProofCcxBezier WitnessCsx.
Import ListNotations.
Open Scope Qc_scope.

Lemma bpmat_right n : (n <= 30)%nat -> exists m mi B, bpmat (Z.of_nat n) = Ok m /\ md_inverse m = Ok mi /\ rep mi (S n) (S n) B /\
  (forall i j, (i < S n)%nat -> (j < S n)%nat -> qsum (fun k => bp n i k * B k j) (S n) = delta i j).
Proof.
  intros Hn. destruct (bpmat_inverse n Hn) as (m & mi & B & E & R & E' & R' & _).
  destruct (md_inverse_rep m (S n) (bp n) R) as [X|(mi' & B' & E2 & R2 & I & _)]; [congruence|]. exists m, mi', B'. auto.
Qed.

(** the columns of the inverse expand the powers in Bernstein polynomials *)
Lemma power_bernstein n (B : nat -> nat -> Qc) a u : (a <= n)%nat ->
  (forall i j, (i < S n)%nat -> (j < S n)%nat -> qsum (fun k => bp n i k * B k j) (S n) = delta i j) ->
  qsum (fun i => B i a * bernstein n i u) (S n) = qpow u a.
Proof.
  intros Ha I.
  transitivity (qsum (fun i => qsum (fun k => B i a * (bp n k i * qpow u k)) (S n)) (S n)).
  { apply qsum_ext. intros i Hi. rewrite <- (bp_bernstein n i u) by lia. rewrite <- qsum_scale. reflexivity. }
  rewrite qsum_swap. transitivity (qsum (fun k => qpow u k * delta k a) (S n)).
  { apply qsum_ext. intros k Hk. rewrite <- (I k a) by lia. rewrite <- qsum_scale. apply qsum_ext. intros i Hi. ring. }
  rewrite (qsum_ext _ (fun i => if Nat.eqb i a then qpow u a else (fun _ => 0) i)).
  - rewrite (qsum_upd (fun _ => 0) a) by lia. rewrite qsum_zero by reflexivity. ring.
  - intros i Hi. unfold delta. destruct (Nat.eqb_spec i a) as [->|]; ring.
Qed.

(** coefficients to control points: the patch is the polynomial *)
Lemma set_bezier co n m : (n <= 30)%nat -> (m <= 30)%nat -> shape co (S n) (S m) ->
  exists o g, mo_set co = Ok o /\ mo_coeffs o = co /\ mo_to_bezier o ns_default = Ok g /\ ns_du g = n /\ ns_dv g = m /\ ns_su g = S n /\ ns_sv g = S m /\
    ns_ku g = repeat 0 (S n) ++ repeat 1 (S n) /\ ns_kv g = repeat 0 (S m) ++ repeat 1 (S m) /\ intervals_current g /\ shape (ns_cps g) (S n) (S m) /\
    (forall i j, (i <= n)%nat -> (j <= m)%nat -> ww (cp (ns_cps g) i j) = 1) /\
    forall u v, bezier_patch (fun i j => euclid (cp (ns_cps g) i j)) (S n) (S m) u v = poly2 co (S n) (S m) u v.
Proof.
  intros Hn Hm Sh. assert (trep v3d co (S n) (S m) (ent co)) as HT by (apply trep_ent; split; [exact Sh|reflexivity]). pose proof Sh as (L & _).
  unfold mo_set. destruct (trep_row v3d co _ _ _ 0 HT ltac:(lia)) as (r & -> & _ & Lr). cbn [bind]. rewrite L, Lr.
  replace (Z.of_nat (S n) - 1)%Z with (Z.of_nat n) by lia. replace (Z.of_nat (S m) - 1)%Z with (Z.of_nat m) by lia.
  destruct (bpmat_right n Hn) as (mu & mui & Bu & -> & Eu & Ru & Iu). destruct (bpmat_right m Hm) as (mv & mvi & Bv & -> & Ev & Rv & Iv). cbn [bind]. rewrite Eu, Ev. cbn [bind].
  set (o := Mono (S n) (S m) co mu mv mui mvi).
  destruct (to_bezier_ok o n m (ent co) Bu Bv eq_refl eq_refl HT Ru Rv) as (g & E & D1 & D2 & S1 & S2 & K1 & K2 & IC & R).
  exists o, g. apply trep_cp in R. destruct R as (Sg & N). repeat (split; [assumption || reflexivity|]). split.
  - intros i j Hi Hj. rewrite N by lia. reflexivity.
  - intros u v. unfold bezier_patch, poly2, combination. replace (S n - 1)%nat with n by lia. replace (S m - 1)%nat with m by lia.
    assert (forall x, x / 1 = x) as Q1 by (intros; field; discriminate).
    assert (forall c, (c < 3)%nat -> qsum (fun i => qsum (fun j => comp3 c (euclid (cp (ns_cps g) i j)) * bernstein n i u * bernstein m j v) (S m)) (S n) =
      qsum (fun i => qsum (fun j => comp3 c (ent co i j) * qpow u i * qpow v j) (S m)) (S n)) as H.
    { intros c Hc. transitivity (qsum (fun i => qsum (fun j => sandwich Bu (fun a b => comp3 c (ent co a b)) Bv (S n) (S m) i j * bernstein n i u * bernstein m j v) (S m)) (S n)).
      { apply qsum_ext. intros i Hi. apply qsum_ext. intros j Hj. rewrite N by lia. do 2 f_equal.
        rewrite <- (comp3_from (fun c => sandwich Bu (fun a b => comp3 c (ent co a b)) Bv (S n) (S m)) c i j) by assumption.
        f_equal. destruct (from_comps _ i j) as [x y z]. unfold euclid, v4of3. cbn [wx wy wz ww vx vy vz]. rewrite !Q1. reflexivity. }
      rewrite sandwich_eval. apply qsum_ext. intros a Ha. apply qsum_ext. intros b Hb. rewrite !power_bernstein by (assumption || lia). reflexivity. }
    f_equal; [apply (H 0%nat)|apply (H 1%nat)|apply (H 2%nat)]; lia.
Qed.

Lemma valid_bez01 n : valid_knots n n (repeat 0 (S n) ++ repeat 1 (S n)).
Proof.
  destruct (gen_knots_spec n n (le_n n)) as (U & E & V & _). rewrite bezier_knots in E. injection E as <-. exact V.
Qed.

(** a patch over 0...0 1...1 runs through the Bezier patch of its control points *)
Lemma bezier_eval s n m u v : good_surf s n m -> unit_surf s -> ns_du s = n -> ns_dv s = m ->
  ns_ku s = repeat 0 (S n) ++ repeat 1 (S n) -> ns_kv s = repeat 0 (S m) ++ repeat 1 (S m) ->
  0 <= u -> u <= 1 -> 0 <= v -> v <= 1 ->
  ns_evaluate s u v = Ok (bezier_patch (fun i j => euclid (cp (ns_cps s) i j)) (S n) (S m) u v).
Proof.
  intros G U Du Dv Ku Kv A B C D. destruct (bezier_evaluate_top s n m u v G U Du Dv Ku Kv A B C D) as (o & E & ->). f_equal.
  pose proof G as (L & Rw & Su & Sv & _ & _ & D8u & D8v).
  assert (shape (ns_cps s) (S n) (S m)) as Sh by (split; [exact L|]; intros i Hi; apply Rw, nth_In; lia).
  destruct (monomial_top s n m) as (o' & E' & _ & P); try assumption; try lia.
  { intros i j Hi Hj W. assert (ww (cp (ns_cps s) i j) = 1) as W'.
    { destruct Sh as (_ & R). apply (U (nth i (ns_cps s) [])); [apply nth_In; lia|]. apply nth_In. rewrite R by lia. lia. }
    rewrite W' in W. discriminate. }
  assert (o' = o) as -> by congruence. apply P.
Qed.

(** the Gauss map of any surface with enough and at most five rows and columns of
    control points of weight not 0 *)
Lemma gauss_raw s n m : (1 <= n <= 4)%nat -> (1 <= m <= 4)%nat -> shape (ns_cps s) (S n) (S m) -> ns_su s = S n -> ns_sv s = S m ->
  (forall i j, (i <= n)%nat -> (j <= m)%nat -> ww (cp (ns_cps s) i j) <> 0) ->
  exists g du dv, gauss_map s = Ok g /\ halvable g /\ ns_iu g = (0, 1) /\ ns_iv g = (0, 1) /\
    (forall u v, has_derivative3 (fun t => bezier_patch (fun i j => euclid (cp (ns_cps s) i j)) (S n) (S m) t v) u (du u v)) /\
    (forall u v, has_derivative3 (fun t => bezier_patch (fun i j => euclid (cp (ns_cps s) i j)) (S n) (S m) u t) v (dv u v)) /\
    forall u v, unit_square u v -> ns_evaluate g u v = Ok (v3cross (du u v) (dv u v)).
Proof.
  intros Hn Hm Sh Su Sv W. destruct (monomial_top s n m) as (o & E & So & P); try assumption; try lia.
  destruct (normal_top o (S n) (S m) ltac:(lia) ltac:(lia) So) as (o' & du & dv & EN & N1 & N2 & SC & Hu & Hv & HN).
  assert (mo_set (mo_coeffs o') = Ok o') as ES.
  { revert EN. unfold mo_normal. destruct (partial_derivative _ true []) as [cu| |]; cbn [bind]; try discriminate. destruct (partial_derivative _ false []) as [cv| |]; cbn [bind]; try discriminate.
    destruct (cross_tensor cu cv []) as [co| |]; cbn [bind]; try discriminate. intros EN. enough (mo_coeffs o' = co) as -> by exact EN.
    revert EN. unfold mo_set. destruct (get co 0); cbn [bind]; try discriminate. repeat (match goal with |- (x <- ?r ;; _) = _ -> _ => destruct r; cbn [bind]; try discriminate end).
    intros [= <-]. reflexivity. }
  replace (2 * S n - 2)%nat with (S (2 * n - 1)) in * by lia. replace (2 * S m - 2)%nat with (S (2 * m - 1)) in * by lia.
  destruct (set_bezier (mo_coeffs o') (2 * n - 1) (2 * m - 1)) as (o2 & g & E2 & _ & EB & D1 & D2 & S1 & S2 & K1 & K2 & IC & Sg & Wg & PG); [lia|lia|exact SC|].
  assert (o2 = o') as -> by congruence.
  assert (unit_surf g) as UG.
  { intros row q Hr Hq. destruct Sg as (L1 & L2). destruct (In_nth _ _ [] Hr) as (i & Hi & Ei). destruct (In_nth _ _ (V4 0 0 0 0) Hq) as (j & Hj & Ej).
    rewrite L1 in Hi. specialize (L2 i Hi). rewrite Ei in L2. specialize (Wg i j ltac:(lia) ltac:(lia)). unfold cp in Wg. rewrite Ei, Ej in Wg. exact Wg. }
  assert (good_surf g (2 * n - 1) (2 * m - 1)) as GG.
  { destruct Sg as (L1 & L2). split; [exact L1|]. split.
    { intros row Hr. destruct (In_nth _ _ [] Hr) as (i & Hi & Ei). rewrite <- Ei. apply L2. lia. }
    split; [exact S1|]. split; [exact S2|]. rewrite D1, D2, K1, K2. split; [apply valid_bez01|]. split; [apply valid_bez01|]. lia. }
  exists g, du, dv. split; [unfold gauss_map; rewrite E; cbn [bind]; rewrite EN; exact EB|].
  assert (forall k, knot (repeat 0 (S k) ++ repeat 1 (S k)) 0 = 0 /\ knot (repeat 0 (S k) ++ repeat 1 (S k)) (length (repeat 0 (S k) ++ repeat 1 (S k)) - 1) = 1) as KE.
  { intros k. rewrite app_length, !repeat_length. destruct (ProofCcxBezier.knot_bez 0 1 k) as [X Y]. rewrite !Nat.add_1_r in X, Y. split; [apply X; lia|apply Y; lia]. }
  assert (ns_iu g = (0, 1) /\ ns_iv g = (0, 1)) as (IU & IV).
  { destruct IC as (-> & ->). rewrite K1, K2. destruct (KE (2 * n - 1)%nat) as (-> & ->). destruct (KE (2 * m - 1)%nat) as (-> & ->). auto. }
  split.
  { exists (2 * n - 1)%nat, (2 * m - 1)%nat. split; [exact GG|]. split; [intros row q Hr Hq; rewrite (UG row q Hr Hq); reflexivity|]. split; [exact IC|].
    rewrite D1, D2, K1, K2. replace (S (2 * n - 1)) with (2 * n - 1 + 1)%nat by lia. replace (S (2 * m - 1)) with (2 * m - 1 + 1)%nat by lia.
    split; apply cuttable_bezier; try lia; reflexivity. }
  split; [exact IU|]. split; [exact IV|].
  assert (forall f g x d, (forall t : Qc, f t = g t) -> has_derivative3 f x d -> has_derivative3 g x d) as EXT.
  { intros f h x d H (A1 & A2 & A3). split; [|split].
    - apply (has_derivative_ext (fun t => vx (f t))); [intros t; rewrite H; reflexivity|exact A1].
    - apply (has_derivative_ext (fun t => vy (f t))); [intros t; rewrite H; reflexivity|exact A2].
    - apply (has_derivative_ext (fun t => vz (f t))); [intros t; rewrite H; reflexivity|exact A3]. }
  split; [intros u v; apply (EXT (fun t => poly2 (mo_coeffs o) (S n) (S m) t v)); [intros t; apply P|apply Hu]|].
  split; [intros u v; apply (EXT (fun t => poly2 (mo_coeffs o) (S n) (S m) u t)); [intros t; apply P|apply Hv]|].
  intros u v (A & B & C & D). rewrite (bezier_eval g (2 * n - 1) (2 * m - 1) u v GG UG D1 D2 K1 K2 A B C D). f_equal. rewrite PG. apply HN.
Qed.

(** as a statement about evaluation *)
Lemma gauss_top : forall s n m, (1 <= n <= 4)%nat -> (1 <= m <= 4)%nat -> good_surf s n m -> unit_surf s -> ns_du s = n -> ns_dv s = m ->
  ns_ku s = repeat 0 (S n) ++ repeat 1 (S n) -> ns_kv s = repeat 0 (S m) ++ repeat 1 (S m) ->
  exists g P du dv, gauss_map s = Ok g /\ (forall u v, unit_square u v -> ns_evaluate s u v = Ok (P u v)) /\
    (forall u v, has_derivative3 (fun t => P t v) u (du u v)) /\ (forall u v, has_derivative3 (fun t => P u t) v (dv u v)) /\
    ns_iu g = (0, 1) /\ ns_iv g = (0, 1) /\ forall u v, unit_square u v -> ns_evaluate g u v = Ok (v3cross (du u v) (dv u v)).
Proof.
  intros s n m Hn Hm G U Du Dv Ku Kv. pose proof G as (L & Rw & Su & Sv & _ & _ & D8u & D8v).
  assert (shape (ns_cps s) (S n) (S m)) as Sh by (split; [exact L|]; intros i Hi; apply Rw, nth_In; lia).
  destruct (gauss_raw s n m Hn Hm Sh Su Sv) as (g & du & dv & E & _ & IU & IV & Hu & Hv & HN).
  { intros i j Hi Hj W. assert (ww (cp (ns_cps s) i j) = 1) as W'.
    { destruct Sh as (_ & R). apply (U (nth i (ns_cps s) [])); [apply nth_In; lia|]. apply nth_In. rewrite R by lia. lia. }
    rewrite W' in W. discriminate. }
  exists g, (bezier_patch (fun i j => euclid (cp (ns_cps s) i j)) (S n) (S m)), du, dv. split; [exact E|].
  split; [intros u v (A & B & C & D); apply bezier_eval; assumption|]. auto 10.
Qed.
