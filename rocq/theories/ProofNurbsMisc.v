(** Knot normalisation, multiplicity reports, construction, copies. *)
From Coq Require Import List ZArith QArith Qcanon Bool Lia Lqa Field Sorted.
From Verif Require Import Base BaseFacts LoopFacts ModelVec ModelAabb SpecAabb ProofAabb ModelNurbs SpecNurbs ProofBspline ProofNurbs ProofInsertKnot ProofCurve.
Import ListNotations.
Open Scope Qc_scope.

(** ** Affine reparametrisation *)
Lemma aff_le a b d : 0 < d -> (a * d <= b * d <-> a <= b).
Proof.
  intros H. split; intros L.
  - destruct (Qcleb_spec a b) as [|N]; [assumption|]. apply Qcnot_le_lt in N. exfalso. qc_nra.
  - qc_nra.
Qed.
Lemma aff_eq (a b d : Qc) : 0 < d -> (a * d = b * d <-> a = b).
Proof.
  intros H. split; [|intros ->; reflexivity]. intros E.
  apply Qcle_antisym; apply (aff_le _ _ d H); rewrite E; apply Qcle_refl.
Qed.

Section Affine.
  Variables (U : nat -> Qc) (b d : Qc).
  Hypothesis Hd : 0 < d.
  Let f (x : Qc) := (x - b) * d.
  Lemma aff_sub x y : f x - f y = (x - y) * d.
  Proof. unfold f. ring. Qed.
  Lemma aff_leb x y : (f x <=? f y) = (x <=? y).
  Proof.
    destruct (Qcleb_spec x y) as [L|L]; qcb.
    - unfold f. apply aff_le; [assumption|qc_lra].
    - apply Qcnot_le_lt. intros F. apply aff_le in F; [|assumption]. apply L. qc_lra.
  Qed.
  Lemma aff_ltb x y : (f x <? f y) = (x <? y).
  Proof. unfold Qcltb. rewrite aff_leb. reflexivity. Qed.
  Lemma aff_eqb x y : (f x =? f y) = (x =? y).
  Proof.
    destruct (Qceqb_spec x y) as [->|L]; qcb; [reflexivity|].
    intros F. apply L. unfold f in F. apply aff_eq in F; [|assumption]. qc_lra.
  Qed.
  Lemma aff_div x y z w : (f x - f y) / (f z - f w) = (x - y) / (z - w).
  Proof.
    rewrite !aff_sub. destruct (Qceqb_spec (z - w) 0) as [E|E].
    - rewrite E. replace (0 * d) with 0 by ring. rewrite !Qcdiv_0_r. reflexivity.
    - field. split; [assumption|]. intros F. rewrite F in Hd. discriminate Hd.
  Qed.
  Lemma bspline_affine n p u : forall i, bspline (fun j => f (U j)) n p i (f u) = bspline U n p i u.
  Proof.
    induction p; intros i; cbn [bspline].
    - rewrite aff_eqb, aff_leb, aff_ltb. reflexivity.
    - rewrite !IHp, !aff_div. reflexivity.
  Qed.
End Affine.

Lemma bspline_ext U V n p u : (forall j, U j = V j) -> forall i, bspline U n p i u = bspline V n p i u.
Proof.
  intros E. induction p; intros i; cbn [bspline]; rewrite !E; [reflexivity|]. rewrite !IHp. reflexivity.
Qed.

Lemma knot_map (g : Qc -> Qc) U i : U <> [] -> knot (map g U) i = g (knot U i).
Proof.
  intros NE. unfold knot.
  assert (last (map g U) 0 = g (last U 0)) as ->.
  { destruct (exists_last NE) as (l & x & ->). rewrite map_app. cbn [map]. rewrite !last_last. reflexivity. }
  apply map_nth.
Qed.

Lemma normalize_ok c n : length (nc_cps c) = S n -> valid_knots n (nc_degree c) (nc_knots c) ->
  let U := nc_knots c in let a := knot U 0 in let b := knot U (length U - 1) in
  exists c', normalize_knots c = Ok c' /\ nc_cps c' = nc_cps c /\ nc_degree c' = nc_degree c /\
    nc_periodic c' = nc_periodic c /\ nc_aabb c' = nc_aabb c /\
    nc_interval c' = (0, 1) /\ nc_knots c' = map (fun k => (k - a) / (b - a)) U /\ a < b /\
    valid_knots n (nc_degree c) (nc_knots c') /\
    (forall i j, knot (nc_knots c') i <= knot (nc_knots c') j <-> knot U i <= knot U j) /\
    (forall i j, knot (nc_knots c') i = knot (nc_knots c') j <-> knot U i = knot U j) /\
    forall u, rational_point (nc_knots c') n (nc_degree c) (nc_cps c) ((u - a) / (b - a)) =
              rational_point U n (nc_degree c) (nc_cps c) u.
Proof.
  intros HP V U a b. pose proof V as (Hpn & HL & HS & HN). fold U in HL, HS, HN. pose proof (sorted_mono U HS) as M.
  assert (U <> []) as NE by (intros E; rewrite E in HL; cbn in HL; lia).
  assert (a < b) as Hab.
  { assert (a <= knot U n) by (apply M; lia). assert (knot U (n + 1) <= b) by (apply M; lia). qc_lra. }
  set (d := 1 / (b - a)).
  assert (b - a <> 0) as N0 by (apply Qcsub_pos; assumption).
  assert (0 < d) as Hd.
  { assert (0 <= d) by (apply Qcdiv_nonneg; qc_lra). assert (d <> 0) as F.
    { intros F. assert (d * (b - a) = 1) as G by (unfold d; field; assumption). rewrite F in G. qc_lra. }
    destruct (Qc_neq_or _ _ F); qc_lra. }
  unfold normalize_knots. fold U. destruct (interval_sorted U HS NE) as [-> ->]. cbn [bind]. fold a b.
  rewrite qdiv_ok by assumption. cbn [bind]. fold d.
  set (U' := map (fun k => (k - a) * d) U).
  assert (U' = map (fun k => (k - a) / (b - a)) U) as EU.
  { apply map_ext. intros x. unfold d. field. assumption. }
  assert (forall i, knot U' i = (knot U i - a) * d) as KU by (intros; apply (knot_map (fun k => (k - a) * d)); assumption).
  assert (forall i j, knot U' i <= knot U' j <-> knot U i <= knot U j) as LE.
  { intros i j. rewrite !KU. rewrite <- !Qcleb_iff. rewrite (aff_leb a d Hd). reflexivity. }
  assert (sorted U') as SU.
  { apply mono_sorted. intros i j H. apply LE. apply M. assumption. }
  rewrite update_interval_sorted; cbn [nc_knots nc_set_knots]; [|exact SU|].
  2:{ intros E. apply map_eq_nil in E. contradiction. }
  eexists. split; [reflexivity|]. cbn [nc_set_interval nc_set_knots nc_cps nc_degree nc_periodic nc_aabb nc_interval nc_knots].
  split; [reflexivity|]. split; [reflexivity|]. split; [reflexivity|]. split; [reflexivity|].
  split.
  { rewrite !KU. unfold U' at 1. rewrite map_length. fold a b. f_equal; unfold d; field; assumption. }
  split; [exact EU|]. split; [exact Hab|]. split.
  { split; [assumption|]. split; [unfold U'; rewrite map_length; assumption|]. split; [assumption|].
    rewrite !KU. rewrite <- Qcltb_iff. rewrite (aff_ltb a d Hd). qcb. assumption. }
  split; [exact LE|]. split.
  { intros i j. rewrite !KU. rewrite <- !Qceqb_iff. rewrite (aff_eqb a d Hd). reflexivity. }
  intros u. assert ((u - a) / (b - a) = (u - a) * d) as -> by (unfold d; field; assumption).
  assert (forall i, basis_at U' n (nc_degree c) ((u - a) * d) i = basis_at U n (nc_degree c) u i) as B.
  { intros i. unfold basis_at. rewrite (bspline_ext _ (fun j => (knot U j - a) * d)) by exact KU.
    apply (bspline_affine (knot U) a d Hd). }
  unfold rational_point, weight_at, weighted_at. cbv zeta.
  assert (forall (g h : nat -> Qc), (forall i, g i = h i) -> qsum g (S n) = qsum h (S n)) as Q by (intros; apply qsum_ext; auto).
  f_equal; (f_equal; apply Q; intros i; rewrite B; reflexivity).
Qed.

(** ** multiplicities *)
Definition tol8 : Qc := lit_1em8.
Lemma lit8_pos : 0 < lit_1em8. Proof. reflexivity. Qed.

Lemma mult_loop_spec U : forall k0 count,
  (forall x, In x U -> k0 <= x) -> LocallySorted Qcle (k0 :: U) ->
  (forall x y, In x (k0 :: U) -> In y (k0 :: U) -> x < y -> lit_1em8 <= y - x) ->
  let R := mult_loop k0 count U in
  LocallySorted Qclt (map fst R) /\
  (exists m rest, R = (k0, m) :: rest /\ m = (count + multiplicity U k0)%nat) /\
  (forall x m, In (x, m) R -> x = k0 \/ (k0 < x /\ In x U /\ m = multiplicity U x)) /\
  (forall x, In x U -> In x (map fst R)).
Proof.
  induction U as [|a U IH]; intros k0 count HB HS HD R.
  - unfold R. cbn. split; [constructor|]. split; [exists count, []; split; [reflexivity|lia]|].
    split; [|contradiction]. intros x m [E|[]]. injection E as <- <-. left; reflexivity.
  - assert (k0 <= a) as Ha by (apply HB; left; reflexivity).
    assert (LocallySorted Qcle (a :: U)) as HS' by (inversion HS; assumption).
    assert (forall x, In x U -> a <= x) as HB'.
    { apply Sorted_LocallySorted_iff in HS'. apply Sorted_StronglySorted in HS'; [|exact Qcle_trans].
      inversion HS' as [|? ? ? F]; subst. rewrite Forall_forall in F. exact F. }
    assert (forall x y, In x (a :: U) -> In y (a :: U) -> x < y -> lit_1em8 <= y - x) as HD'.
    { intros. apply HD; try assumption; right; assumption. }
    unfold R. cbn [mult_loop]. destruct (Qcltb_spec (Qcabs (a - k0)) lit_1em8) as [L|L].
    + assert (a = k0) as Ea.
      { destruct (Qceqb_spec a k0) as [|N]; [assumption|]. exfalso.
        assert (k0 < a) as G by (destruct (Qc_neq_or _ _ N); qc_lra).
        pose proof (HD k0 a (or_introl eq_refl) (or_intror (or_introl eq_refl)) G) as K.
        unfold Qcabs in L. destruct (Qcltb_spec (a - k0) 0); qc_lra. }
      subst a. destruct (IH k0 (S count) HB' HS' HD') as (A & (m & rest & B1 & B2) & C & D).
      split; [exact A|]. split.
      * exists m, rest. split; [exact B1|]. rewrite B2. unfold multiplicity. cbn [filter].
        destruct (Qceqb_spec k0 k0); [cbn [length]; lia|contradiction].
      * split.
        -- intros x m' Hx. destruct (C x m' Hx) as [->|(X1 & X2 & X3)]; [left; reflexivity|].
           right. split; [assumption|]. split; [right; assumption|]. rewrite X3. unfold multiplicity. cbn [filter].
           destruct (Qceqb_spec x k0) as [E|E]; [subst x; exfalso; qc_lra|reflexivity].
        -- intros x [<-|Hx]; [|apply D; assumption]. rewrite B1. left; reflexivity.
    + assert (k0 < a) as G.
      { destruct (Qceqb_spec a k0) as [->|N]; [|destruct (Qc_neq_or _ _ N); qc_lra].
        exfalso. apply L. replace (k0 - k0) with 0 by ring. exact lit8_pos. }
      destruct (IH a 1%nat HB' HS' HD') as (A & (m & rest & B1 & B2) & C & D).
      assert (multiplicity (a :: U) k0 = 0)%nat as M0.
      { unfold multiplicity. rewrite filter_none; [reflexivity|]. intros x [<-|Hx]; qcb; intros E; [rewrite E in G; qc_lra|].
        specialize (HB' x Hx). rewrite <- E in HB'. qc_lra. }
      split.
      * cbn [map fst]. rewrite B1. cbn [map fst]. constructor; [rewrite B1 in A; exact A|exact G].
      * split; [exists count, (mult_loop a 1 U); split; [reflexivity|rewrite M0; lia]|]. split.
        -- intros x m' [E|Hx]; [injection E as <- <-; left; reflexivity|].
           right. destruct (C x m' Hx) as [->|(X1 & X2 & X3)].
           ++ split; [assumption|]. split; [left; reflexivity|].
              assert (In (a, m') ((a, m) :: rest)) as I by (rewrite <- B1; exact Hx).
              assert (m' = m) as ->.
              { destruct I as [I|I]; [congruence|]. exfalso.
                rewrite B1 in A. cbn [map fst] in A. apply Sorted_LocallySorted_iff in A.
                apply Sorted_StronglySorted in A; [|exact Qclt_trans]. inversion A as [|? ? ? F]; subst.
                rewrite Forall_forall in F. specialize (F a (in_map fst _ _ I)). exact (Qlt_irrefl _ F). }
              rewrite B2. unfold multiplicity. cbn [filter]. destruct (Qceqb_spec a a); [reflexivity|contradiction].
           ++ split; [qc_lra|]. split; [right; assumption|]. rewrite X3. unfold multiplicity. cbn [filter].
              destruct (Qceqb_spec x a) as [E|E]; [subst x; exfalso; qc_lra|reflexivity].
        -- intros x [<-|Hx]; right; [rewrite B1; left; reflexivity|apply D; assumption].
Qed.

Lemma sorted_Strongly U : sorted U -> StronglySorted Qcle U.
Proof.
  intros H. induction U as [|a U IH]; constructor.
  - apply IH. intros i j Hij Hj. apply (H (S i) (S j)); [lia|cbn; lia].
  - apply Forall_forall. intros x Hx. destruct (In_nth _ _ 0 Hx) as (j & Hj & <-).
    apply (H 0%nat (S j)); [lia|cbn; lia].
Qed.

Lemma unique_loop_in l : forall seen x, In x (unique_loop seen l) <-> In x l /\ ~ In x seen.
Proof.
  induction l as [|a l IH]; intros seen x; cbn [unique_loop]; [cbn; tauto|].
  destruct (existsb (Qceqb a) seen) eqn:E.
  - rewrite IH. apply existsb_exists in E. destruct E as (y & Hy & E). qcb. subst y. cbn [In]. split.
    + intros [H1 H2]. tauto.
    + intros [[<-|H1] H2]; tauto.
  - assert (~ In a seen) as N.
    { intros I. assert (existsb (Qceqb a) seen = true) as F by (apply existsb_exists; exists a; split; [assumption|qcb; reflexivity]). congruence. }
    cbn [In]. rewrite IH. cbn [In]. split.
    + intros [<-|[H1 H2]]; tauto.
    + intros [[<-|H1] H2]; [tauto|]. destruct (Qceqb_spec a x) as [->|]; tauto.
Qed.

Lemma unique_loop_sorted l : StronglySorted Qcle l -> forall seen, StronglySorted Qclt (unique_loop seen l).
Proof.
  induction 1 as [|a l S IH F]; intros seen; cbn [unique_loop]; [constructor|].
  destruct (existsb (Qceqb a) seen); [apply IH|]. constructor; [apply IH|].
  apply Forall_forall. intros x Hx. apply unique_loop_in in Hx. destruct Hx as [H1 H2].
  rewrite Forall_forall in F. specialize (F x H1). destruct (Qcle_lt_or_eq _ _ F) as [|E]; [assumption|].
  exfalso. apply H2. left. assumption.
Qed.

Lemma strict_unique l1 : forall l2, StronglySorted Qclt l1 -> StronglySorted Qclt l2 ->
  (forall x, In x l1 <-> In x l2) -> l1 = l2.
Proof.
  induction l1 as [|a l1 IH]; intros l2 S1 S2 H.
  - destruct l2 as [|b l2]; [reflexivity|]. exfalso. apply (H b). left; reflexivity.
  - destruct l2 as [|b l2]; [exfalso; apply (H a); left; reflexivity|].
    inversion S1 as [|? ? S1' F1]; subst. inversion S2 as [|? ? S2' F2]; subst. rewrite Forall_forall in F1, F2.
    assert (a = b) as ->.
    { assert (In a (b :: l2)) as [E|I1] by (apply H; left; reflexivity); [congruence|].
      assert (In b (a :: l1)) as [E|I2] by (apply H; left; reflexivity); [congruence|].
      specialize (F1 b I2). specialize (F2 a I1). exfalso. qc_lra. }
    f_equal. apply IH; try assumption. intros x. split; intros I.
    + assert (In x (b :: l2)) as [E|J] by (apply H; right; assumption); [|assumption].
      subst x. exfalso. specialize (F1 b I). qc_lra.
    + assert (In x (b :: l1)) as [E|J] by (apply H; right; assumption); [|assumption].
      subst x. exfalso. specialize (F2 b I). qc_lra.
Qed.

Lemma knot_report U : sorted U -> (forall x y, In x U -> In y U -> x < y -> lit_1em8 <= y - x) ->
  let R := getKnotMultiplicities U in
  StronglySorted Qclt (map fst R) /\
  (forall x m, In (x, m) R <-> In x U /\ m = multiplicity U x) /\
  uniqueKnots U = map fst R.
Proof.
  intros HS HD R. pose proof (sorted_Strongly U HS) as SS.
  assert (StronglySorted Qclt (map fst R) /\ (forall x m, In (x, m) R <-> In x U /\ m = multiplicity U x)) as [A B].
  { unfold R, getKnotMultiplicities. destruct U as [|a U]; [split; [constructor|cbn; tauto]|].
    inversion SS as [|? ? SS' F]; subst. rewrite Forall_forall in F.
    destruct (mult_loop_spec U a 1 F) as (A & (m & rest & B1 & B2) & C & D).
    { apply Sorted_LocallySorted_iff. apply StronglySorted_Sorted. assumption. }
    { assumption. }
    assert (multiplicity (a :: U) a = (1 + multiplicity U a)%nat) as MA.
    { unfold multiplicity. cbn [filter]. destruct (Qceqb_spec a a); [reflexivity|contradiction]. }
    assert (StronglySorted Qclt (map fst (mult_loop a 1 U))) as A'.
    { apply Sorted_StronglySorted; [exact Qclt_trans|]. apply Sorted_LocallySorted_iff. exact A. }
    split; [exact A'|].
    assert (forall x m m', In (x, m) (mult_loop a 1 U) -> In (x, m') (mult_loop a 1 U) -> m = m') as FUN.
    { intros x m1 m2 I1 I2. clear - A' I1 I2. induction (mult_loop a 1 U) as [|[y m] l IH]; [destruct I1|].
      cbn [map fst] in A'. inversion A' as [|? ? S' F']; subst. rewrite Forall_forall in F'.
      destruct I1 as [E1|I1], I2 as [E2|I2].
      - congruence.
      - injection E1 as -> ->. specialize (F' x (in_map fst _ _ I2)). exfalso. exact (Qlt_irrefl _ F').
      - injection E2 as -> ->. specialize (F' x (in_map fst _ _ I1)). exfalso. exact (Qlt_irrefl _ F').
      - apply IH; assumption. }
    intros x m'. split.
    - intros I. destruct (C x m' I) as [->|(X1 & X2 & X3)].
      + split; [left; reflexivity|]. rewrite MA, <- B2. apply (FUN a); [exact I|]. rewrite B1. left; reflexivity.
      + split; [right; assumption|]. rewrite X3. unfold multiplicity. cbn [filter].
        destruct (Qceqb_spec x a) as [E|E]; [subst x; exfalso; qc_lra|reflexivity].
    - intros [I ->].
      assert (In x (map fst (mult_loop a 1 U))) as IM.
      { destruct I as [<-|I]; [rewrite B1; left; reflexivity|apply D; assumption]. }
      apply in_map_iff in IM. destruct IM as ([x' m'] & E & IM). cbn in E. subst x'.
      assert (m' = multiplicity (a :: U) x) as <-; [|assumption].
      destruct (C x m' IM) as [->|(X1 & X2 & X3)].
      + rewrite MA, <- B2. apply (FUN a); [exact IM|]. rewrite B1. left; reflexivity.
      + rewrite X3. unfold multiplicity. cbn [filter].
        destruct (Qceqb_spec x a) as [E|E]; [subst x; exfalso; qc_lra|reflexivity]. }
  split; [exact A|]. split; [exact B|].
  apply strict_unique; [apply unique_loop_sorted; assumption|assumption|].
  intros x. unfold uniqueKnots. rewrite unique_loop_in. rewrite in_map_iff. split.
  - intros [I _]. exists (x, multiplicity U x). split; [reflexivity|]. apply B. auto.
  - intros ([y m] & E & I). cbn in E. subst y. apply B in I. split; [tauto|]. intros [].
Qed.

(** ** construction *)
Lemma make_unit pts p : (p < length pts)%nat ->
  exists c n U, nc_make3 pts p false = Ok c /\ length pts = S n /\ gen_knots (S n) p = Ok U /\
    nc_cps c = map v4of3 pts /\ nc_degree c = p /\ nc_knots c = U /\ nc_periodic c = false /\
    nc_interval c = (0, Qc_of_nat (length pts - p)) /\
    (forall q, In q (nc_cps c) -> inside (nc_aabb c) (xyz q)) /\
    (forall b', (forall q, In q (nc_cps c) -> inside b' (xyz q)) -> subbox (nc_aabb c) b').
Proof.
  intros H. destruct (length pts) as [|n] eqn:EL; [lia|].
  destruct (gen_knots_spec n p ltac:(lia)) as (U & E & V & C & K1 & K2 & K3 & K4).
  unfold nc_make3, nc_make. unfold generate_knots. cbn [nc_cps nc_degree]. rewrite map_length, EL, E. cbn [bind].
  pose proof V as (Hpn & HL & HS & HN).
  rewrite update_interval_sorted; cbn [nc_set_knots nc_knots]; [|assumption|intros F; rewrite F in HL; cbn in HL; lia].
  cbn [bind].
  match goal with |- context [rebuildAABB ?c] => destruct (rebuild_unit c) as (b & Eb & B1 & B2) end.
  { cbn. intros q Hq. apply in_map_iff in Hq. destruct Hq as (x & <- & _). reflexivity. }
  { cbn. intros F. apply map_eq_nil in F. subst pts. discriminate. }
  rewrite Eb. eexists _, n, U. split; [reflexivity|]. split; [reflexivity|]. split; [exact E|].
  cbn [nc_set_aabb nc_set_interval nc_cps nc_degree nc_knots nc_periodic nc_interval nc_aabb] in *.
  split; [reflexivity|]. split; [reflexivity|]. split; [reflexivity|]. split; [reflexivity|]. split.
  - f_equal.
    + destruct C as [C _]. rewrite <- (C p) by lia. exact K2.
    + destruct C as [_ C]. rewrite (C (length U - 1)%nat) by lia. exact K3.
  - split; assumption.
Qed.
