(** Patches made from coefficients. *)
From Coq Require Import List ZArith QArith Qcanon Bool Lia Lqa.
From Verif Require Import Base BaseFacts LoopFacts ModelVec ModelAabb ModelNurbs ModelSurface ModelBinom ModelNumeric ModelMonomial ModelMonomialMake
  SpecNurbs SpecCurve SpecSurface SpecMonomial SpecNumeric
  ProofBspline ProofNurbs ProofCurve ProofMinimize ProofSurface ProofSurfaceTop ProofMatrix ProofMonomial ProofMonomialTop ProofMonomialDiff ProofSsxGauss.
Import ListNotations.
Open Scope Qc_scope.

Lemma int_pred_S n : int_pred (Z.of_nat (S n)) = Ok (Z.of_nat n).
Proof. unfold int_pred. destruct (Z.leb_spec (Z.of_nat (S n)) (- 2 ^ 31)); [lia|]. f_equal. lia. Qed.

Lemma copy_same o : mo_copy o = o. Proof. destruct o; reflexivity. Qed.

Lemma sized_set co n m : (n <= 30)%nat -> (m <= 30)%nat -> shape co (S n) (S m) -> mo_sized (Z.of_nat (S n)) (Z.of_nat (S m)) co = mo_set co.
Proof.
  intros Hn Hm Sh. assert (trep v3d co (S n) (S m) (ent co)) as HT by (apply trep_ent; split; [exact Sh|reflexivity]). pose proof Sh as (L & _).
  unfold mo_set, mo_sized. destruct (trep_row v3d co _ _ _ 0 HT ltac:(lia)) as (r & -> & _ & Lr). cbn [bind]. rewrite L, Lr, !int_pred_S. cbn [bind].
  replace (Z.of_nat (S n) - 1)%Z with (Z.of_nat n) by lia. replace (Z.of_nat (S m) - 1)%Z with (Z.of_nat m) by lia.
  rewrite !Nat2Z.id. reflexivity.
Qed.

Lemma patch_good g n m : (n <= 8)%nat -> (m <= 8)%nat -> ns_du g = n -> ns_dv g = m -> ns_su g = S n -> ns_sv g = S m ->
  ns_ku g = repeat 0 (S n) ++ repeat 1 (S n) -> ns_kv g = repeat 0 (S m) ++ repeat 1 (S m) -> shape (ns_cps g) (S n) (S m) ->
  (forall i j, (i <= n)%nat -> (j <= m)%nat -> ww (cp (ns_cps g) i j) = 1) -> good_surf g n m /\ unit_surf g.
Proof.
  intros Hn Hm D1 D2 S1 S2 K1 K2 (L1 & L2) W. split.
  - split; [exact L1|]. split.
    { intros row Hr. destruct (In_nth _ _ [] Hr) as (i & Hi & Ei). rewrite <- Ei. apply L2. lia. }
    split; [exact S1|]. split; [exact S2|]. rewrite D1, D2, K1, K2. split; [apply valid_bez01|]. split; [apply valid_bez01|]. lia.
  - intros row q Hr Hq. destruct (In_nth _ _ [] Hr) as (i & Hi & Ei). destruct (In_nth _ _ (V4 0 0 0 0) Hq) as (j & Hj & Ej).
    rewrite L1 in Hi. specialize (L2 i Hi). rewrite Ei in L2. specialize (W i j ltac:(lia) ltac:(lia)). unfold cp in W. rewrite Ei, Ej in W. exact W.
Qed.

Lemma make_top : forall co n m, (n <= 30)%nat -> (m <= 30)%nat -> shape co (S n) (S m) ->
  exists o g, mo_sized (Z.of_nat (S n)) (Z.of_nat (S m)) co = Ok o /\ mo_set co = Ok o /\ mo_to_bezier (mo_copy o) ns_default = Ok g /\
    ns_du g = n /\ ns_dv g = m /\ shape (ns_cps g) (S n) (S m) /\
    (forall u v, bezier_patch (fun i j => euclid (cp (ns_cps g) i j)) (S n) (S m) u v = poly2 co (S n) (S m) u v) /\
    ((n <= 8)%nat -> (m <= 8)%nat -> forall u v, 0 <= u -> u <= 1 -> 0 <= v -> v <= 1 -> ns_evaluate g u v = Ok (poly2 co (S n) (S m) u v)).
Proof.
  intros co n m Hn Hm Sh. destruct (set_bezier co n m Hn Hm Sh) as (o & g & E & _ & EB & D1 & D2 & S1 & S2 & K1 & K2 & IC & Sg & W & P).
  exists o, g. rewrite (sized_set co n m Hn Hm Sh), copy_same. do 6 (split; [assumption|]). split; [exact P|].
  intros H8 H8' u v A B C D. destruct (patch_good g n m H8 H8' D1 D2 S1 S2 K1 K2 Sg W) as (GG & UG).
  rewrite (bezier_eval g n m u v GG UG D1 D2 K1 K2 A B C D). f_equal. apply P.
Qed.

Lemma blank_shape n m : shape (repeat (repeat (V3 0 0 0) m) n) n m.
Proof. destruct (trep_repeat v3d n m (V3 0 0 0)) as (A & B & _). split; assumption. Qed.
Lemma poly2_zero n m u v : poly2 (repeat (repeat (V3 0 0 0) m) n) n m u v = V3 0 0 0.
Proof.
  unfold poly2, combination.
  assert (forall i j, ent (repeat (repeat (V3 0 0 0) m) n) i j = V3 0 0 0) as H.
  { intros i j. unfold ent. destruct (Nat.lt_ge_cases i n) as [Hi|Hi].
    - rewrite (nth_indep _ [] (repeat (V3 0 0 0) m)) by (rewrite repeat_length; lia). rewrite nth_repeat. apply nth_repeat.
    - rewrite (nth_overflow (repeat (repeat (V3 0 0 0) m) n)) by (rewrite repeat_length; lia). destruct j; reflexivity. }
  f_equal; apply qsum_zero; intros i Hi; apply qsum_zero; intros j Hj; rewrite H; cbn; ring.
Qed.

Lemma blank_top : forall n m, (n <= 30)%nat -> (m <= 30)%nat ->
  exists o g, mo_blank (Z.of_nat (S n)) (Z.of_nat (S m)) = Ok o /\ mo_to_bezier o ns_default = Ok g /\ ns_du g = n /\ ns_dv g = m /\
    (forall u v, bezier_patch (fun i j => euclid (cp (ns_cps g) i j)) (S n) (S m) u v = V3 0 0 0) /\
    ((n <= 8)%nat -> (m <= 8)%nat -> forall u v, 0 <= u -> u <= 1 -> 0 <= v -> v <= 1 -> ns_evaluate g u v = Ok (V3 0 0 0)).
Proof.
  intros n m Hn Hm. destruct (make_top _ n m Hn Hm (blank_shape (S n) (S m))) as (o & g & E & _ & EB & D1 & D2 & _ & P & Q).
  exists o, g. rewrite copy_same in EB. split.
  { unfold mo_blank. destruct (Z.ltb_spec (Z.of_nat (S n)) 0); [lia|]. destruct (Z.ltb_spec (Z.of_nat (S m)) 0); [lia|]. rewrite !Nat2Z.id. exact E. }
  split; [exact EB|]. split; [exact D1|]. split; [exact D2|]. split.
  - intros u v. rewrite P. apply poly2_zero.
  - intros H8 H8' u v A B C D. rewrite (Q H8 H8' u v A B C D). f_equal. apply poly2_zero.
Qed.

Lemma negative_top : forall n m co, (n < 0 \/ m < 0)%Z -> (- 2 ^ 31 < n <= 31)%Z -> (- 2 ^ 31 < m <= 31)%Z ->
  mo_blank n m = Throw ELength /\ mo_sized n m co = Throw ELength.
Proof.
  intros n m co H Hn Hm. split.
  - unfold mo_blank. destruct (Z.ltb_spec n 0); [reflexivity|]. destruct (Z.ltb_spec m 0); [reflexivity|lia].
  - assert (forall z, (- 2 ^ 31 < z)%Z -> int_pred z = Ok (z - 1)%Z) as I by (intros z Hz; unfold int_pred; destruct (Z.leb_spec z (- 2 ^ 31)); [lia|reflexivity]).
    assert (forall z, (z < 0)%Z -> bpmat (z - 1) = Throw ELength) as T by (intros z Hz; unfold bpmat; destruct (Z.ltb_spec (z - 1) (-1)); [reflexivity|lia]).
    unfold mo_sized. rewrite !I by lia. cbn [bind]. destruct (Z.lt_ge_cases n 0) as [N|N]; [rewrite (T n N); reflexivity|].
    assert (exists a, bpmat (n - 1) = Ok a) as (a & ->).
    { destruct (Z.eq_dec n 0) as [->|]; [eexists; reflexivity|]. destruct (bpmat_rep (Z.to_nat (n - 1))) as (a & E & _); [lia|]. rewrite Z2Nat.id in E by lia. eauto. }
    cbn [bind]. rewrite (T m) by lia. reflexivity.
Qed.

Lemma wrong_sizes_top : forall co n m a b, (n <= 30)%nat -> (m <= 30)%nat -> shape co (S a) b -> (S a <> S n \/ b <> S m) ->
  exists o, mo_sized (Z.of_nat (S n)) (Z.of_nat (S m)) co = Ok o /\ forall surf, mo_to_bezier o surf = Throw ERuntime.
Proof.
  intros co n m a b Hn Hm Sh NE. assert (trep v3d co (S a) b (ent co)) as HT by (apply trep_ent; split; [exact Sh|reflexivity]).
  unfold mo_sized. rewrite !int_pred_S. cbn [bind].
  destruct (bpmat_right n Hn) as (mu & mui & Bu & -> & Eu & Ru & _). destruct (bpmat_right m Hm) as (mv & mvi & Bv & -> & Ev & Rv & _). cbn [bind]. rewrite Eu, Ev. cbn [bind].
  eexists. split; [reflexivity|]. intros surf. unfold mo_to_bezier. cbn [mo_Mvi mo_Mui mo_coeffs mo_n mo_m].
  destruct (md_transpose_rep _ _ _ _ Rv) as (t & -> & Rt). cbn [bind]. cbn [for_up].
  assert (mo_component co mui t 0 = Throw ERuntime) as ->; [|reflexivity].
  unfold mo_component. destruct (get_component_rep co a b _ 0 HT) as (g & -> & Rg). cbn [bind].
  destruct (Nat.eq_dec (S a) (S n)) as [En|Nn].
  - injection En as ->. destruct (md_mul_rep mui g (S n) (S n) b _ _ Ru Rg) as (p & -> & Rp). cbn [bind].
    destruct NE as [NE|NE]; [congruence|]. destruct Rp as (_ & P2 & _). destruct Rt as (T1 & _). unfold md_mul. rewrite P2, T1.
    destruct (Nat.eqb_spec b (S m)); [contradiction|reflexivity].
  - destruct Rg as (G1 & _). destruct Ru as (_ & U2 & _). unfold md_mul. rewrite G1, U2. destruct (Nat.eqb_spec (S n) (S a)); [congruence|reflexivity].
Qed.
