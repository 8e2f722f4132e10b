(** Monomial patches: round trip, evaluation, derivative, normal. *)
From Coq Require Import List ZArith QArith Qcanon Bool Lia Lqa Field.
From Verif Require Import Base BaseFacts LoopFacts ModelVec ModelAabb ModelNurbs ModelSurface ModelBinom ModelNumeric ModelMonomial
  SpecNurbs SpecSurface SpecNumeric SpecMonomial ProofBspline ProofCurve ProofSurface ProofSurfaceTop ProofIntegrate ProofMinimize ProofMatrix ProofBpmat ProofMonomial.
Import ListNotations.
Open Scope Qc_scope.

(** ** round trip *)
Lemma resize_nil {A} n (v : A) : resize_to [] n v = repeat v n.
Proof. unfold resize_to. rewrite firstn_nil, Nat.sub_0_r. reflexivity. Qed.

Lemma bezier_knots n : gen_knots (S n) n = Ok (repeat 0 (S n) ++ repeat 1 (S n)).
Proof.
  unfold gen_knots. destruct (Nat.ltb_spec (S n) n); [lia|]. replace (S n - n)%nat with 1%nat by lia. rewrite Nat.add_1_r. reflexivity.
Qed.

Lemma to_bezier_ok o n m F Bu Bv : mo_n o = S n -> mo_m o = S m -> trep v3d (mo_coeffs o) (S n) (S m) F ->
  rep (mo_Mui o) (S n) (S n) Bu -> rep (mo_Mvi o) (S m) (S m) Bv ->
  exists s', mo_to_bezier o ns_default = Ok s' /\ ns_du s' = n /\ ns_dv s' = m /\ ns_su s' = S n /\ ns_sv s' = S m /\
    ns_ku s' = repeat 0 (S n) ++ repeat 1 (S n) /\ ns_kv s' = repeat 0 (S m) ++ repeat 1 (S m) /\ intervals_current s' /\
    trep v4d (ns_cps s') (S n) (S m) (fun i j => v4of3 (from_comps (fun c => sandwich Bu (fun a b => comp3 c (F a b)) Bv (S n) (S m)) i j)).
Proof.
  intros En Em HT Hu Hv. unfold mo_to_bezier. destruct (md_transpose_rep _ _ _ _ Hv) as (t & -> & Rt). cbn [bind].
  rewrite En, Em. cbn [ns_cps ns_default]. rewrite resize_nil.
  destruct (three_components v4d put4 (fun c => mo_component (mo_coeffs o) (mo_Mui o) t c) (fun c => sandwich Bu (fun a b => comp3 c (F a b)) Bv (S n) (S m))
    (repeat (repeat (V4 0 0 0 1) (S m)) (S n)) (S n) (S m) _ (trep_repeat v4d _ _ _)) as (cps & E & R).
  { intros c _. apply (component_rep (mo_coeffs o) n (S m) F _ _ _ _ c HT Hu Rt). }
  cbv beta in E. rewrite E. cbn [bind]. rewrite !bezier_knots. cbn [bind]. unfold ns_update_interval. cbn [ns_ku ns_kv repeat app range_of bind].
  eexists. split; [reflexivity|]. cbn [ns_du ns_dv ns_su ns_sv ns_ku ns_kv ns_cps repeat app].
  do 6 (split; [reflexivity|]). split.
  - assert (forall l : list Qc, (0 < length l)%nat -> last l 0 = knot l (length l - 1)) as LK.
    { intros l Hl. unfold knot. rewrite (nth_indep _ _ 0) by lia. revert Hl. clear. induction l as [|x l IH]; intros Hl; [cbn in Hl; lia|].
      destruct l as [|y l]; [reflexivity|]. change (last (x :: y :: l) 0) with (last (y :: l) 0). rewrite IH by (cbn; lia).
      replace (length (x :: y :: l) - 1)%nat with (S (length (y :: l) - 1)) by (cbn; lia). reflexivity. }
    split; cbn [ns_iu ns_iv ns_ku ns_kv]; apply f_equal2; try reflexivity; apply (LK (0 :: _ ++ 1 :: _)); cbn; lia.
  - exact R.
Qed.

Lemma trep_ent T n m F : trep v3d T n m F <-> shape T n m /\ forall i j, (i < n)%nat -> (j < m)%nat -> ent T i j = F i j.
Proof. unfold trep, shape, ent, v3d. tauto. Qed.
Lemma trep_cp T n m F : trep v4d T n m F <-> shape T n m /\ forall i j, (i < n)%nat -> (j < m)%nat -> cp T i j = F i j.
Proof. unfold trep, shape, cp, v4d. tauto. Qed.
Lemma comps3 (v : vec3) : V3 (comp3 0 v) (comp3 1 v) (comp3 2 v) = v. Proof. destruct v; reflexivity. Qed.
Lemma comp3_from X c i j : (c < 3)%nat -> comp3 c (from_comps X i j) = X c i j.
Proof. intros H. destruct c as [|[|[|c]]]; try lia; reflexivity. Qed.

Lemma round_trip_top : forall s n m, (n <= 30)%nat -> (m <= 30)%nat -> shape (ns_cps s) (S n) (S m) -> ns_su s = S n -> ns_sv s = S m ->
  (forall i j, (i <= n)%nat -> (j <= m)%nat -> ww (cp (ns_cps s) i j) <> 0) ->
  exists o s', mo_of_surface s = Ok o /\ mo_to_bezier o ns_default = Ok s' /\
    ns_du s' = n /\ ns_dv s' = m /\ ns_su s' = S n /\ ns_sv s' = S m /\
    ns_ku s' = repeat 0 (S n) ++ repeat 1 (S n) /\ ns_kv s' = repeat 0 (S m) ++ repeat 1 (S m) /\ intervals_current s' /\
    shape (ns_cps s') (S n) (S m) /\ forall i j, (i <= n)%nat -> (j <= m)%nat -> cp (ns_cps s') i j = v4of3 (euclid (cp (ns_cps s) i j)).
Proof.
  intros s n m Hn Hm Sh Su Sv W. destruct (mo_of_surface_ok s n m Hn Hm Sh Su Sv W) as (o & Bu & Bv & E & En & Em & R & Ru & Rv & Iu & Iv).
  destruct (to_bezier_ok o n m _ Bu Bv En Em R Ru Rv) as (s' & E' & D1 & D2 & S1 & S2 & K1 & K2 & IC & R'). exists o, s'.
  do 9 (split; [assumption|]). apply trep_cp in R'. destruct R' as (Sh' & N). split; [exact Sh'|]. intros i j Hi Hj. rewrite N by lia. f_equal.
  rewrite <- (comps3 (euclid (cp (ns_cps s) i j))). unfold from_comps at 1. f_equal.
  - rewrite <- (sandwich_cancel (S n) (S m) (bp n) Bu (bp m) Bv (fun a b => comp3 0 (euclid (cp (ns_cps s) a b))) i j Iu Iv) by lia. reflexivity.
  - rewrite <- (sandwich_cancel (S n) (S m) (bp n) Bu (bp m) Bv (fun a b => comp3 1 (euclid (cp (ns_cps s) a b))) i j Iu Iv) by lia. reflexivity.
  - rewrite <- (sandwich_cancel (S n) (S m) (bp n) Bu (bp m) Bv (fun a b => comp3 2 (euclid (cp (ns_cps s) a b))) i j Iu Iv) by lia. reflexivity.
Qed.

Lemma unit_round_trip_top : forall s n m, (n <= 30)%nat -> (m <= 30)%nat -> shape (ns_cps s) (S n) (S m) -> ns_su s = S n -> ns_sv s = S m ->
  unit_surf s -> exists o s', mo_of_surface s = Ok o /\ mo_to_bezier o ns_default = Ok s' /\ ns_cps s' = ns_cps s.
Proof.
  intros s n m Hn Hm Sh Su Sv U.
  assert (forall i j, (i <= n)%nat -> (j <= m)%nat -> ww (cp (ns_cps s) i j) = 1) as W.
  { intros i j Hi Hj. destruct Sh as (L & R). apply (U (nth i (ns_cps s) [])); [apply nth_In; lia|]. apply nth_In. rewrite R by lia. lia. }
  destruct (round_trip_top s n m Hn Hm Sh Su Sv) as (o & s' & E & E' & _ & _ & _ & _ & _ & _ & _ & Sh' & N).
  { intros i j Hi Hj. rewrite W by assumption. discriminate. }
  exists o, s'. split; [exact E|]. split; [exact E'|].
  apply (trep_eq v4d _ _ (S n) (S m) (cp (ns_cps s))); apply trep_cp; (split; [assumption|]); [|reflexivity]. intros i j Hi Hj. rewrite N by lia.
  specialize (W i j ltac:(lia) ltac:(lia)). unfold v4of3, euclid. destruct (cp (ns_cps s) i j) as [x y z w]. cbn in *. subst w. f_equal; field; discriminate.
Qed.

(** ** evaluation *)
Lemma qsum_mul f g a b : qsum f a * qsum g b = qsum (fun i => qsum (fun j => f i * g j) b) a.
Proof.
  transitivity (qsum (fun i => qsum g b * f i) a); [rewrite qsum_scale; ring|]. apply qsum_ext. intros i _. rewrite qsum_scale. ring.
Qed.
Lemma sandwich_eval n m L X R f g :
  qsum (fun i => qsum (fun j => sandwich L X R n m i j * f i * g j) m) n =
  qsum (fun a => qsum (fun b => X a b * qsum (fun i => L i a * f i) n * qsum (fun j => R j b * g j) m) m) n.
Proof.
  transitivity (qsum (fun i => qsum (fun j => qsum (fun a => qsum (fun b => L i a * X a b * R j b * f i * g j) m) n) m) n).
  { apply qsum_ext. intros i _. apply qsum_ext. intros j _. unfold sandwich. rewrite qsum_swap.
    transitivity (f i * g j * qsum (fun b => qsum (fun a => L i a * X a b) n * R j b) m); [ring|]. rewrite <- qsum_scale. apply qsum_ext. intros b _.
    transitivity (f i * g j * R j b * qsum (fun a => L i a * X a b) n); [ring|]. rewrite <- qsum_scale. apply qsum_ext. intros; ring. }
  transitivity (qsum (fun i => qsum (fun a => qsum (fun b => qsum (fun j => L i a * X a b * R j b * f i * g j) m) m) n) n).
  { apply qsum_ext. intros i _. rewrite qsum_swap. apply qsum_ext. intros a _. apply qsum_swap. }
  rewrite qsum_swap. apply qsum_ext. intros a _. rewrite qsum_swap. apply qsum_ext. intros b _.
  transitivity (X a b * (qsum (fun i => L i a * f i) n * qsum (fun j => R j b * g j) m)); [|ring]. rewrite qsum_mul, <- qsum_scale.
  apply qsum_ext. intros i _. rewrite <- qsum_scale. apply qsum_ext. intros; ring.
Qed.

Lemma coeffs_eval n m co P : trep v3d co (S n) (S m) (from_comps (fun c => sandwich (bp n) (fun a b => comp3 c (P a b)) (bp m) (S n) (S m))) ->
  forall u v, poly2 co (S n) (S m) u v = bezier_patch P (S n) (S m) u v.
Proof.
  intros R u v. apply trep_ent in R. destruct R as (_ & N). unfold poly2, bezier_patch, combination.
  assert (forall c, (c < 3)%nat -> qsum (fun i => qsum (fun j => comp3 c (ent co i j) * qpow u i * qpow v j) (S m)) (S n) =
    qsum (fun i => qsum (fun j => comp3 c (P i j) * bernstein (S n - 1) i u * bernstein (S m - 1) j v) (S m)) (S n)) as H.
  { intros c Hc.
    transitivity (qsum (fun i => qsum (fun j => sandwich (bp n) (fun a b => comp3 c (P a b)) (bp m) (S n) (S m) i j * qpow u i * qpow v j) (S m)) (S n)).
    { apply qsum_ext. intros i Hi. apply qsum_ext. intros j Hj. rewrite N by assumption. rewrite comp3_from by assumption. reflexivity. }
    rewrite sandwich_eval. apply qsum_ext. intros a Ha. apply qsum_ext. intros b Hb. rewrite !bp_bernstein by lia.
    replace (S n - 1)%nat with n by lia. replace (S m - 1)%nat with m by lia. reflexivity. }
  f_equal; [apply (H 0%nat)|apply (H 1%nat)|apply (H 2%nat)]; lia.
Qed.

Lemma monomial_top : forall s n m, (n <= 30)%nat -> (m <= 30)%nat -> shape (ns_cps s) (S n) (S m) -> ns_su s = S n -> ns_sv s = S m ->
  (forall i j, (i <= n)%nat -> (j <= m)%nat -> ww (cp (ns_cps s) i j) <> 0) ->
  exists o, mo_of_surface s = Ok o /\ shape (mo_coeffs o) (S n) (S m) /\
    forall u v, poly2 (mo_coeffs o) (S n) (S m) u v = bezier_patch (fun i j => euclid (cp (ns_cps s) i j)) (S n) (S m) u v.
Proof.
  intros s n m Hn Hm Sh Su Sv W. destruct (mo_of_surface_ok s n m Hn Hm Sh Su Sv W) as (o & Bu & Bv & E & En & Em & R & _).
  exists o. split; [exact E|]. split; [apply trep_ent in R; tauto|]. apply coeffs_eval. exact R.
Qed.

(** Bernstein polynomials are the basis over 0...0 1...1 *)
Lemma bernstein_S q j u : bernstein (S q) j u = (match j with O => 0 | S k => u * bernstein q k u end) + (1 - u) * (if Nat.leb j q then bernstein q j u else 0).
Proof.
  unfold bernstein. destruct j as [|k].
  - rewrite !pascal_n0, !Nat.sub_0_r. cbn [Nat.leb qpow]. replace (Qc_of_Z 1) with 1 by reflexivity. ring.
  - rewrite pascal_SS, Qc_of_Z_add. destruct (Nat.leb_spec (S k) q).
    + replace (S q - S k)%nat with (S (q - S k)) by lia. replace (q - k)%nat with (S (q - S k)) by lia. cbn [qpow]. ring.
    + rewrite (pascal_gt q (S k)) by lia. replace (S q - S k)%nat with (q - k)%nat by lia. replace (Qc_of_Z 0) with 0 by reflexivity. cbn [qpow]. ring.
Qed.

Section Bezier.
Variables (U : nat -> Qc) (p : nat) (u : Qc).
Hypothesis U0 : forall i, (i <= p)%nat -> U i = 0.
Hypothesis U1 : forall i, (p < i)%nat -> U i = 1.
Hypothesis Hu0 : 0 <= u.
Hypothesis Hu1 : u <= 1.
Lemma bezier_beyond : forall q i, (p < i)%nat -> bspline U p q i u = 0.
Proof.
  induction q; intros i Hi; cbn [bspline].
  - rewrite !U1 by lia. destruct (Qceqb_spec u 1) as [|N]; [destruct (Nat.eqb_spec i p); [lia|reflexivity]|].
    destruct (1 <=? u) eqn:E; [|reflexivity]. apply Qcleb_iff in E. exfalso. apply N. apply Qcle_antisym; assumption.
  - rewrite !IHq by lia. ring.
Qed.
Lemma bezier_basis : forall q i, (q <= p)%nat -> (i <= p)%nat -> bspline U p q i u = if Nat.leb (p - q) i then bernstein q (i - (p - q)) u else 0.
Proof.
  induction q; intros i Hq Hi; cbn [bspline].
  - rewrite (U1 (S p)) by lia. rewrite (U0 i) by assumption. rewrite Nat.sub_0_r.
    destruct (Nat.leb_spec p i).
    + assert (i = p) as -> by lia. rewrite Nat.sub_diag, (U1 (S p)), Nat.eqb_refl by lia.
      assert ((if u =? 1 then true else (0 <=? u) && (u <? 1)) = true) as ->; [|unfold bernstein; cbn; replace (Qc_of_Z 1) with 1 by reflexivity; ring].
      destruct (Qceqb_spec u 1) as [|N]; [reflexivity|]. apply andb_true_iff. split; [apply Qcleb_iff; assumption|].
      apply Qcltb_iff. apply Qcle_lt_or_eq in Hu1. destruct Hu1; [assumption|contradiction].
    + rewrite (U0 (S i)) by lia. destruct (Qceqb_spec u 1); [destruct (Nat.eqb_spec i p); [lia|reflexivity]|].
      destruct (u <? 0) eqn:E; [|rewrite andb_false_r; reflexivity]. apply Qcltb_iff in E. exfalso. apply Qcle_not_lt in Hu0. contradiction.
  - rewrite (IHq i) by lia. rewrite (U0 i) by assumption.
    assert (bspline U p q (i + 1) u = if Nat.leb (p - q) (i + 1) && Nat.leb (i + 1) p then bernstein q (i + 1 - (p - q)) u else 0) as ->.
    { destruct (Nat.leb_spec (i + 1) p); [rewrite andb_true_r; apply IHq; lia|]. rewrite andb_false_r. apply bezier_beyond. lia. }
    destruct (Nat.leb_spec (p - S q) i) as [L|L].
    2:{ destruct (Nat.leb_spec (p - q) i); [lia|]. destruct (Nat.leb_spec (p - q) (i + 1)); [lia|]. cbn [andb]. ring. }
    rewrite bernstein_S.
    assert ((u - 0) / (U (i + S q)%nat - 0) * (if Nat.leb (p - q) i then bernstein q (i - (p - q)) u else 0) = match (i - (p - S q))%nat with O => 0 | S k => u * bernstein q k u end) as ->.
    { destruct (Nat.leb_spec (p - q) i).
      - rewrite (U1 (i + S q)) by lia. destruct (i - (p - S q))%nat eqn:E; [lia|]. replace (i - (p - q))%nat with n by lia. field. discriminate.
      - destruct (i - (p - S q))%nat eqn:E; [ring|lia]. }
    f_equal. destruct (Nat.leb_spec (p - q) (i + 1)); [|lia]. cbn [andb].
    destruct (Nat.leb_spec (i + 1) p).
    + rewrite (U1 (i + S q + 1)), (U0 (i + 1)) by lia. destruct (Nat.leb_spec (i - (p - S q)) q); [|lia].
      replace (i + 1 - (p - q))%nat with (i - (p - S q))%nat by lia. field. discriminate.
    + destruct (Nat.leb_spec (i - (p - S q)) q); [lia|]. ring.
Qed.
End Bezier.

Lemma bernstein_sum : forall q u, qsum (fun i => bernstein q i u) (S q) = 1.
Proof.
  induction q; intros u.
  - unfold bernstein. cbn. replace (Qc_of_Z 1) with 1 by reflexivity. ring.
  - rewrite (qsum_ext _ (fun j => (match j with O => 0 | S k => u * bernstein q k u end) + (1 - u) * (if Nat.leb j q then bernstein q j u else 0))) by (intros; apply bernstein_S).
    rewrite qsum_add, qsum_shift, qsum_scale, qsum_scale, IHq.
    assert (qsum (fun i => if Nat.leb i q then bernstein q i u else 0) (S (S q)) = 1) as ->; [|ring].
    rewrite <- (IHq u). change (qsum (fun i => if Nat.leb i q then bernstein q i u else 0) (S (S q))) with
      (qsum (fun i => if Nat.leb i q then bernstein q i u else 0) (S q) + (if Nat.leb (S q) q then bernstein q (S q) u else 0)).
    destruct (Nat.leb_spec (S q) q); [lia|]. rewrite Qcplus_0_r. apply qsum_ext. intros i Hi. destruct (Nat.leb_spec i q); [reflexivity|lia].
Qed.

Lemma bezier_evaluate_top : forall s n m u v, good_surf s n m -> unit_surf s -> ns_du s = n -> ns_dv s = m ->
  ns_ku s = repeat 0 (S n) ++ repeat 1 (S n) -> ns_kv s = repeat 0 (S m) ++ repeat 1 (S m) ->
  0 <= u -> u <= 1 -> 0 <= v -> v <= 1 ->
  exists o, mo_of_surface s = Ok o /\ ns_evaluate s u v = Ok (poly2 (mo_coeffs o) (S n) (S m) u v).
Proof.
  intros s n m u v G U Du Dv Ku Kv Hu0 Hu1 Hv0 Hv1. pose proof G as (L & Rw & Su & Sv & _ & _ & D8u & D8v).
  assert (shape (ns_cps s) (S n) (S m)) as Sh by (split; [exact L|]; intros i Hi; apply Rw, nth_In; lia).
  assert (forall i j, (i <= n)%nat -> (j <= m)%nat -> ww (cp (ns_cps s) i j) = 1) as W.
  { intros i j Hi Hj. destruct Sh as (_ & R). apply (U (nth i (ns_cps s) [])); [apply nth_In; lia|]. apply nth_In. rewrite R by lia. lia. }
  destruct (monomial_top s n m) as (o & E & _ & P); try assumption; try lia.
  { intros i j Hi Hj. rewrite W by assumption. discriminate. }
  exists o. split; [exact E|]. rewrite P.
  assert (forall k i, knot (repeat 0 (S k) ++ repeat 1 (S k)) i = if Nat.leb i k then 0 else 1) as KN.
  { intros k i. unfold knot. assert (last (repeat 0 (S k) ++ repeat 1 (S k)) 0 = 1) as ->.
    { replace (repeat 1 (S k)) with (repeat 1 k ++ [1]) by (symmetry; apply repeat_cons). rewrite app_assoc, last_last. reflexivity. }
    destruct (Nat.leb_spec i k).
    - rewrite app_nth1 by (rewrite repeat_length; lia). rewrite (nth_indep _ 1 0) by (rewrite repeat_length; lia). apply nth_repeat.
    - rewrite app_nth2 by (rewrite repeat_length; lia). apply nth_repeat. }
  assert (forall k, knot (repeat 0 (S k) ++ repeat 1 (S k)) k = 0 /\ knot (repeat 0 (S k) ++ repeat 1 (S k)) (k + 1) = 1) as KE.
  { intros k. rewrite !KN. destruct (Nat.leb_spec k k); [|lia]. destruct (Nat.leb_spec (k + 1) k); [lia|]. auto. }
  destruct (surface_evaluate_top s n m u v G) as (EV & _).
  { split; rewrite ?Ku, ?Kv, ?Du, ?Dv; unfold in_domain; [destruct (KE n) as (-> & ->)|destruct (KE m) as (-> & ->)]; auto. }
  { intros row q Hr Hq. rewrite (U row q Hr Hq). reflexivity. }
  rewrite EV. f_equal. unfold surf_point, bezier_patch, combination.
  assert (forall k t i, 0 <= t -> t <= 1 -> (i <= k)%nat -> basis_at (repeat 0 (S k) ++ repeat 1 (S k)) k k t i = bernstein k i t) as BB.
  { intros k t i T0 T1 Hi. unfold basis_at. rewrite (bezier_basis _ k t) by (try assumption; try lia; intros a Ha; rewrite KN; destruct (Nat.leb_spec a k); lia || reflexivity).
    rewrite Nat.sub_diag. cbn [Nat.leb]. rewrite Nat.sub_0_r. reflexivity. }
  assert (forall c, tensor c s n m u v = qsum (fun i => qsum (fun j => c (cp (ns_cps s) i j) * bernstein n i u * bernstein m j v) (S m)) (S n)) as T.
  { intros c. unfold tensor. rewrite Ku, Kv, Du, Dv. apply qsum_ext. intros i Hi. apply qsum_ext. intros j Hj. rewrite !BB by (assumption || lia). ring. }
  assert (tensor ww s n m u v = 1) as TW.
  { rewrite T. transitivity (qsum (fun i => bernstein n i u * qsum (fun j => bernstein m j v) (S m)) (S n)).
    - apply qsum_ext. intros i Hi. rewrite <- qsum_scale. apply qsum_ext. intros j Hj. rewrite W by lia. ring.
    - rewrite bernstein_sum. rewrite (qsum_ext _ (fun i => bernstein n i u)) by (intros; ring). apply bernstein_sum. }
  rewrite TW, !T. replace (S n - 1)%nat with n by lia. replace (S m - 1)%nat with m by lia.
  assert (forall x, x / 1 = x) as D1 by (intros; field; discriminate). rewrite !D1.
  f_equal; apply qsum_ext; intros i Hi; apply qsum_ext; intros j Hj; unfold euclid; cbn [vx vy vz]; rewrite W by lia; rewrite D1; reflexivity.
Qed.
