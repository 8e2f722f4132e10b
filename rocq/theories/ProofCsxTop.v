(** Curve-surface intersection in the form the Props file states it. *)
From Coq Require Import List ZArith QArith Qcanon Bool Lia Lqa.
From Verif Require Import Base BaseFacts LoopFacts ModelVec ModelAabb SpecAabb ProofAabb ModelNurbs ModelSurface ModelPolygon ModelGjk ModelPolyline ModelCsx SpecNurbs SpecCurve SpecSurface SpecCcx SpecGjk SpecCsx
  ProofBspline ProofNurbs ProofCurve ProofNurbsTop ProofMinimize ProofDecompose ProofCcx ProofPolygon ProofPolyline ProofCcxBezier ProofCcxTop ProofClosest ProofGjk
  ProofSurfaceSums ProofSurface ProofSurfaceOps ProofSurfaceTop ProofCsxPieces ProofCsx.
Import ListNotations.
Open Scope Qc_scope.

Lemma inv_start newton c s : cuttable_curve (answers_t newton) c -> cuttable_surf (answers_u newton) (answers_v newton) s ->
  inv newton c s c s (fst (ns_iu s)) (snd (ns_iu s)).
Proof.
  intros HC HS. destruct (cpiece_start _ _ HC) as (_ & CP & _). destruct (spiece_start _ _ _ HS) as (_ & _ & SP & _).
  do 4 eexists. split; [exact CP|]. split; [exact SP|]. repeat split; constructor.
Qed.

Lemma csx_sound len newton degenerate apart separable curve_length fuel c s tol r hits :
  cuttable_curve (answers_t newton) c -> cuttable_surf (answers_u newton) (answers_v newton) s -> at_most len tol r ->
  csx len newton degenerate apart separable curve_length fuel c s tol = Some (Ok hits) ->
  forall h, In h hits -> true_hit r c s h.
Proof.
  intros HC HS HR. unfold csx. destruct (compute_ptol curve_length c tol) as [ptol| |]; cbn [lift]; try discriminate.
  pose proof (rec_outcome len newton degenerate apart separable tol ptol (fun a b => v3distSq a b <= r * r) c s HC HS HR True (fun _ => True)) as R.
  assert (forall A (r : res A), allowed (fun _ => True) r) as AL by (intros A [x|e|]; exact I).
  specialize (R ltac:(auto) ltac:(auto) ltac:(auto) ltac:(auto) (or_introl I) fuel c s _ _ [] (inv_start _ _ _ HC HS) (or_introl I)).
  intros E. rewrite E in R. cbn [outcome app] in R. destruct R as (new & -> & H). exact H.
Qed.

Lemma enough_fuel (x y : Qc) : 0 < y -> exists k, forall m, (k <= m)%nat -> x <= Qc_of_nat m * y.
Proof.
  intros Y. destruct (floor_bounds (x / y)) as [_ F]. exists (Z.to_nat (qc_floor (x / y) + 1)). intros m Hm.
  assert (y <> 0) as N by (intros E; rewrite E in Y; discriminate Y).
  assert (x = x / y * y) as -> by (field; exact N). 
  apply Qcmult_le_compat_r; [|apply Qclt_le_weak; exact Y].
  apply Qcle_trans with (Qc_of_Z (qc_floor (x / y) + 1)).
  - assert (Qc_of_Z (qc_floor (x / y) + 1) = Qc_of_Z (qc_floor (x / y)) + 1) as -> by (apply Qc_is_canon; rewrite this_plus, !this_of_Z; unfold inject_Z, Qplus, Qeq; cbn; lia). apply Qclt_le_weak. exact F.
  - unfold Qc_of_nat. apply ProofPolyline.Qc_of_Z_le. lia.
Qed.

Section Ends.
Variable len : vec3 -> option Qc.
Variable newton : ncurve -> nsurf -> res params.
Variable degenerate : ncurve -> nsurf -> params -> res bool.
Variable apart : list vec3 -> list vec3 -> res bool.
Variable separable : vec3 -> list vec3 -> list vec3 -> res bool.
Variable curve_length : ncurve -> res Qc.
Variables (c : ncurve) (s : nsurf) (tol L : Qc).
Hypothesis HC : cuttable_curve (answers_t newton) c.
Hypothesis HS : cuttable_surf (answers_u newton) (answers_v newton) s.
Hypothesis AN : answers3 newton.
Hypothesis AD : answering degenerate.
Hypothesis AA : answers_sets apart.
Hypothesis AS : answering separable.
Hypothesis EL : curve_length c = Ok L.
Hypothesis NL : L <> 0.

Lemma csx_as ptol fuel : ptol = tol * (snd (nc_interval c) - fst (nc_interval c)) / L ->
  csx len newton degenerate apart separable curve_length fuel c s tol = csx_rec len newton degenerate apart separable tol ptol fuel c s [].
Proof. intros ->. unfold csx, compute_ptol. rewrite EL. cbn [bind]. rewrite qdiv_ok by exact NL. reflexivity. Qed.

Lemma allowed_ok X {A} (r : res A) : (exists a, r = Ok a) -> allowed X r.
Proof. intros (a & ->). exact I. Qed.

Lemma csx_ends : exists fuel0, forall fuel, (fuel0 <= fuel)%nat ->
  (exists hits, csx len newton degenerate apart separable curve_length fuel c s tol = Some (Ok hits)) \/
  csx len newton degenerate apart separable curve_length fuel c s tol = Some (Throw EInvalidArgument).
Proof.
  destruct (enough_fuel (snd (ns_iu s) - fst (ns_iu s)) tol7 tol7_pos) as (k & Hk). exists k. intros fuel Hf.
  rewrite (csx_as _ fuel eq_refl).
  pose proof (rec_outcome len newton degenerate apart separable tol (tol * (snd (nc_interval c) - fst (nc_interval c)) / L) (fun _ _ => True) c s HC HS
    (fun _ _ _ _ _ => I) False (fun e => e = Some EInvalidArgument)) as R.
  specialize (R (fun q w => allowed_ok _ _ (AN q w)) (fun q w p => allowed_ok _ _ (AD q w p)) (fun q w H1 H2 => allowed_ok _ _ (AA q w H1 H2))
    (fun q w p => allowed_ok _ _ (AS q w p)) (or_introl eq_refl) fuel c s _ _ [] (inv_start _ _ _ HC HS) (or_intror (Hk fuel Hf))).
  match goal with |- context [csx_rec ?a1 ?a2 ?a3 ?a4 ?a5 ?a6 ?a7 ?a8 ?a9 ?b ?d] => set (X := csx_rec a1 a2 a3 a4 a5 a6 a7 a8 a9 b d) in * end.
  destruct X as [[out|e|]|]; cbn [outcome] in R.
  - left. exists out. reflexivity.
  - right. congruence.
  - discriminate R.
  - destruct R.
Qed.

Lemma csx_returns :
  tol7 < tol * (snd (nc_interval c) - fst (nc_interval c)) / L ->
  (forall q w t u v, newton q w = Ok (t, u, v) -> fst (nc_interval q) <= t -> t <= snd (nc_interval q) ->
     tol12 < t - fst (nc_interval q) /\ tol12 < snd (nc_interval q) - t) ->
  exists fuel0, forall fuel, (fuel0 <= fuel)%nat ->
  exists hits, csx len newton degenerate apart separable curve_length fuel c s tol = Some (Ok hits).
Proof.
  intros PT INN.
  destruct (enough_fuel (snd (ns_iu s) - fst (ns_iu s)) tol7 tol7_pos) as (k & Hk). exists k. intros fuel Hf.
  rewrite (csx_as _ fuel eq_refl).
  pose proof (rec_outcome len newton degenerate apart separable tol (tol * (snd (nc_interval c) - fst (nc_interval c)) / L) (fun _ _ => True) c s HC HS
    (fun _ _ _ _ _ => I) False (fun e => False)) as R.
  assert (forall q w t u v, newton q w = Ok (t, u, v) -> valid_parameter (t, u, v) q w = true ->
     tol12 < t - fst (nc_interval q) /\ tol12 < snd (nc_interval q) - t) as INN'.
  { intros q w t u v E V. apply (INN q w t u v E); unfold valid_parameter in V; rewrite !andb_true_iff in V; destruct V as (((((A & B) & _) & _) & _) & _); qcb; assumption. }
  specialize (R (fun q w => allowed_ok _ _ (AN q w)) (fun q w p => allowed_ok _ _ (AD q w p)) (fun q w H1 H2 => allowed_ok _ _ (AA q w H1 H2))
    (fun q w p => allowed_ok _ _ (AS q w p)) (or_intror (conj PT INN')) fuel c s _ _ [] (inv_start _ _ _ HC HS) (or_intror (Hk fuel Hf))).
  match goal with |- context [csx_rec ?a1 ?a2 ?a3 ?a4 ?a5 ?a6 ?a7 ?a8 ?a9 ?b ?d] => set (X := csx_rec a1 a2 a3 a4 a5 a6 a7 a8 a9 b d) in * end.
  destruct X as [[out|e|]|]; cbn [outcome] in R; try contradiction. exists out. reflexivity.
Qed.
End Ends.

(** ** Small parameter intervals of the surface *)
Lemma csx_small_interval len newton degenerate apart separable curve_length fuel c s tol L hits :
  curve_length c = Ok L -> L <> 0 -> let ptol := tol * (snd (nc_interval c) - fst (nc_interval c)) / L in
  (0 <= snd (ns_iu s) - fst (ns_iu s) /\ snd (ns_iu s) - fst (ns_iu s) < qc 2 1 * ptol) \/
  (0 <= snd (ns_iv s) - fst (ns_iv s) /\ snd (ns_iv s) - fst (ns_iv s) < qc 2 1 * ptol) ->
  csx len newton degenerate apart separable curve_length fuel c s tol = Some (Ok hits) -> hits = [].
Proof.
  intros EL NL ptol H. rewrite (csx_as _ _ _ _ _ _ _ _ _ _ EL NL ptol) by reflexivity. clearbody ptol.
  destruct fuel as [|f]; [discriminate|]. cbn [csx_rec].
  destruct (short ptol (nc_interval c) || short ptol (ns_iu s) || short ptol (ns_iv s)); [congruence|].
  destruct (no_new apart c s) as [[|]| |]; cbn [lift]; try congruence.
  destruct (find_new len newton tol c s) as [found| |]; cbn [lift]; try congruence.
  assert (at_border ptol s ((fst (ns_iu s) + snd (ns_iu s)) * qc 1 2) ((fst (ns_iv s) + snd (ns_iv s)) * qc 1 2) = true) as ->; [|congruence].
  unfold at_border. destruct (ns_iu s) as [a b], (ns_iv s) as [a' b']. cbn [fst snd] in *. destruct H as [[H1 H2]|[H1 H2]].
  - assert (near_to ptol ((a + b) * qc 1 2) a = true) as ->; [|reflexivity].
    unfold near_to. qcb. destruct (Qcabs_cases ((a + b) * qc 1 2 - a)) as [[? ->]|[? ->]]; qc_lra.
  - assert (near_to ptol ((a' + b') * qc 1 2) a' = true) as ->; [|rewrite !orb_true_r; reflexivity].
    unfold near_to. qcb. destruct (Qcabs_cases ((a' + b') * qc 1 2 - a')) as [[? ->]|[? ->]]; qc_lra.
Qed.

(** ** AABBTest *)
Lemma hull_inside P b p : (forall q, In q P -> inside b q) -> in_hull3 P p -> inside b p.
Proof.
  intros H HP. 
  assert (forall d lo hi, (forall q, In q P -> lo <= v3dot q d /\ v3dot q d <= hi) -> lo <= v3dot p d /\ v3dot p d <= hi) as K.
  { intros d lo hi Q. split; [eapply hull_half3_lo|eapply hull_half3]; try exact HP; intros q Hq; apply Q, Hq. }
  assert (forall q, v3dot q (V3 1 0 0) = vx q) as D1 by (intros q; unfold v3dot; cbn [vx vy vz]; ring).
  assert (forall q, v3dot q (V3 0 1 0) = vy q) as D2 by (intros q; unfold v3dot; cbn [vx vy vz]; ring).
  assert (forall q, v3dot q (V3 0 0 1) = vz q) as D3 by (intros q; unfold v3dot; cbn [vx vy vz]; ring).
  intros [| |].
  - pose proof (K (V3 1 0 0) (vx (bmin b)) (vx (bmax b))) as Z. rewrite D1 in Z. apply Z. intros q Hq. rewrite D1. apply (H q Hq AX).
  - pose proof (K (V3 0 1 0) (vy (bmin b)) (vy (bmax b))) as Z. rewrite D2 in Z. apply Z. intros q Hq. rewrite D2. apply (H q Hq AY).
  - pose proof (K (V3 0 0 1) (vz (bmin b)) (vz (bmax b))) as Z. rewrite D3 in Z. apply Z. intros q Hq. rewrite D3. apply (H q Hq AZ).
Qed.
Lemma aabb_test_true A B : aabb_test A B = Ok true -> ~ hulls_meet3 A B.
Proof.
  unfold aabb_test. destruct A as [|a A]; [discriminate|]. destruct B as [|b B]; [discriminate|].
  destruct (of_points_tight (a :: A)) as (x & E1 & _ & I1 & _); [discriminate|]. destruct (of_points_tight (b :: B)) as (y & E2 & _ & I2 & _); [discriminate|].
  rewrite E1, E2. cbn [bind]. intros E (p & P1 & P2). apply Ok_inj in E. apply negb_true_iff in E.
  assert (aabb_intersects x y = true) as K; [|congruence].
  apply intersects_iff. intros ax. destruct (hull_inside _ _ _ I1 P1 ax) as [A1 A2]. destruct (hull_inside _ _ _ I2 P2 ax) as [B1 B2].
  split; eapply Qcle_trans; eassumption.
Qed.
Lemma fold_expand_attained pts ax : forall b,
  (coord (bmin (fold_left aabb_expand pts b)) ax = coord (bmin b) ax \/ exists p, In p pts /\ coord (bmin (fold_left aabb_expand pts b)) ax = coord p ax) /\
  (coord (bmax (fold_left aabb_expand pts b)) ax = coord (bmax b) ax \/ exists p, In p pts /\ coord (bmax (fold_left aabb_expand pts b)) ax = coord p ax).
Proof.
  induction pts as [|q pts IH]; intros b; cbn [fold_left In]; [split; left; reflexivity|].
  destruct (IH (aabb_expand b q)) as [A B]. rewrite expand_min in A. rewrite expand_max in B. split.
  - destruct A as [A|(p & P & A)]; [|right; exists p; auto]. rewrite A. unfold Qcmin. destruct (_ <? _); [right; exists q; auto|left; reflexivity].
  - destruct B as [B|(p & P & B)]; [|right; exists p; auto]. rewrite B. unfold Qcmax. destruct (_ <? _); [right; exists q; auto|left; reflexivity].
Qed.
Lemma of_points_attained A b : aabb_of_points A = Ok b -> forall ax,
  (exists p, In p A /\ coord (bmin b) ax = coord p ax) /\ (exists p, In p A /\ coord (bmax b) ax = coord p ax).
Proof.
  destruct A as [|a A]; [discriminate|]. cbn [aabb_of_points]. intros E ax. apply Ok_inj in E. subst b.
  destruct (fold_expand_attained A ax (Box a a)) as [H1 H2]. cbn [bmin bmax] in H1, H2. split.
  - destruct H1 as [->|(p & P & ->)]; [exists a|exists p]; cbn [In]; auto.
  - destruct H2 as [->|(p & P & ->)]; [exists a|exists p]; cbn [In]; auto.
Qed.
Lemma aabb_test_iff A B : A <> [] -> B <> [] ->
  (aabb_test A B = Ok true <-> exists ax, (forall a b, In a A -> In b B -> coord a ax < coord b ax) \/ (forall a b, In a A -> In b B -> coord b ax < coord a ax)).
Proof.
  intros NA NB. unfold aabb_test.
  destruct (of_points_tight A NA) as (x & E1 & _ & I1 & _). destruct (of_points_tight B NB) as (y & E2 & _ & I2 & _).
  rewrite E1, E2. cbn [bind]. split.
  - intros E. apply Ok_inj in E. apply negb_true_iff in E.
    assert (exists ax, coord (bmax y) ax < coord (bmin x) ax \/ coord (bmax x) ax < coord (bmin y) ax) as (ax & H).
    { destruct (Qcle_or_lt (vx (bmin x)) (vx (bmax y))) as [H1|H1]; [|exists AX; left; exact H1].
      destruct (Qcle_or_lt (vx (bmin y)) (vx (bmax x))) as [H2|H2]; [|exists AX; right; exact H2].
      destruct (Qcle_or_lt (vy (bmin x)) (vy (bmax y))) as [H3|H3]; [|exists AY; left; exact H3].
      destruct (Qcle_or_lt (vy (bmin y)) (vy (bmax x))) as [H4|H4]; [|exists AY; right; exact H4].
      destruct (Qcle_or_lt (vz (bmin x)) (vz (bmax y))) as [H5|H5]; [|exists AZ; left; exact H5].
      destruct (Qcle_or_lt (vz (bmin y)) (vz (bmax x))) as [H6|H6]; [|exists AZ; right; exact H6].
      rewrite (proj2 (intersects_iff x y)) in E; [discriminate|]. intros [| |]; split; assumption. }
    exists ax. destruct H as [H|H]; [right|left]; intros a b Ha Hb; destruct (I1 a Ha ax) as [A1 A2]; destruct (I2 b Hb ax) as [B1 B2].
    + apply Qcle_lt_trans with (coord (bmax y) ax); [exact B2|]. apply Qclt_le_trans with (coord (bmin x) ax); assumption.
    + apply Qcle_lt_trans with (coord (bmax x) ax); [exact A2|]. apply Qclt_le_trans with (coord (bmin y) ax); assumption.
  - intros (ax & H). f_equal. apply negb_true_iff. destruct (aabb_intersects x y) eqn:E; [|reflexivity]. exfalso.
    destruct (proj1 (intersects_iff x y) E ax) as [X Y].
    destruct (of_points_attained A x E1 ax) as [(p & P & EP) (p' & P' & EP')]. destruct (of_points_attained B y E2 ax) as [(q & Q & EQ) (q' & Q' & EQ')].
    rewrite EP, EQ' in X. rewrite EQ, EP' in Y. destruct H as [H|H].
    + exact (Qcle_not_lt _ _ Y (H p' q P' Q)).
    + exact (Qcle_not_lt _ _ X (H p q' P Q')).
Qed.

(** ** centerProjectionToXY *)
Lemma center_projection_spec o p : vz o <> vz p ->
  exists q, center_projection o p = Ok q /\ exists k, V3 (ux q) (uy q) 0 = v3add o (v3scale (v3sub p o) k).
Proof.
  intros H. unfold center_projection. destruct (Qceqb_spec (vz o) (vz p)) as [E|E]; [contradiction|].
  assert (vz p - vz o <> 0) as N. { intros E0. apply H. symmetry. assert (vz p = vz p - vz o + vz o) as -> by ring. rewrite E0. ring. }
  rewrite qdiv_ok by exact N. cbn [bind]. eexists. split; [reflexivity|]. exists (- vz o / (vz p - vz o)).
  destruct o as [ox oy oz], p as [px py pz]. unfold v3add, v3scale, v3sub. cbn [vx vy vz ux uy] in *. f_equal; field; exact N.
Qed.

(** ** What is found in the first call is reported first *)
Definition grows (r : option (res (list csx_int))) (hits : list csx_int) : Prop :=
  match r with Some (Ok out) => exists new, out = hits ++ new | _ => True end.
Lemma grows_same hits : grows (Some (Ok hits)) hits. Proof. exists []. rewrite app_nil_r. reflexivity. Qed.
Lemma grows_then r k hits : grows r hits -> (forall h, grows (k h) h) -> grows (andthen r k) hits.
Proof.
  intros R K. destruct r as [[out|e|]|]; cbn [andthen lift] in *; try exact I. destruct R as (new & ->).
  specialize (K (hits ++ new)). destruct (k (hits ++ new)) as [[out|e|]|]; cbn [grows] in *; try exact I. destruct K as (n & ->).
  exists (new ++ n). rewrite app_assoc. reflexivity.
Qed.
Lemma grows_lift {A} (r : res A) k hits : (forall a, grows (k a) hits) -> grows (lift r k) hits.
Proof. intros K. destruct r; cbn [lift]; [apply K|exact I|exact I]. Qed.
Lemma loop_grows separable rec p c1 c2 : (forall c s h, grows (rec c s h) h) -> forall l hits, grows (csx_loop separable rec p c1 c2 l hits) hits.
Proof.
  intros R. induction l as [|s l IH]; intros hits; cbn [csx_loop]; [apply grows_same|].
  apply grows_lift; intros A1. apply grows_lift; intros A2. apply grows_lift; intros [|]; [apply IH|].
  apply grows_then; [apply R|]. intros h. apply grows_lift; intros A3. apply grows_lift; intros [|]; [apply IH|]. apply grows_then; [apply R|apply IH].
Qed.
Lemma app_grows a b r : grows r (a ++ b) -> grows r a.
Proof. destruct r as [[out|e|]|]; cbn [grows]; try exact (fun _ => I). intros (n & ->). exists (b ++ n). rewrite app_assoc. reflexivity. Qed.
Lemma rec_grows len newton degenerate apart separable tol ptol fuel : forall c s hits,
  grows (csx_rec len newton degenerate apart separable tol ptol fuel c s hits) hits.
Proof.
  induction fuel as [|f IH]; intros c s hits; cbn [csx_rec]; [exact I|].
  destruct (_ || _); [apply grows_same|]. apply grows_lift; intros [|]; [apply grows_same|]. apply grows_lift; intros found.
  destruct (at_border _ _ _ _); [apply grows_same|]. destruct found as [[p [[t u] v]]|].
  - apply grows_lift; intros d. destruct (at_border _ _ _ _); [exists [(d, p, (t, u, v))]; reflexivity|].
    apply grows_lift; intros [c1 c2]. apply grows_lift; intros [[[s1 s2] s3] s4]. apply (app_grows _ [(d, p, (t, u, v))]). apply loop_grows. exact IH.
  - apply grows_lift; intros [c1 c2]. apply grows_lift; intros [[[s1 s2] s3] s4].
    repeat (apply grows_then; [apply IH|intros ?]). apply IH.
Qed.

Lemma csx_first len newton degenerate apart separable curve_length fuel c s tol L hits t u v p q l :
  curve_length c = Ok L -> L <> 0 -> let ptol := tol * (snd (nc_interval c) - fst (nc_interval c)) / L in
  ptol <= snd (nc_interval c) - fst (nc_interval c) ->
  0 <= ptol -> qc 2 1 * ptol <= snd (ns_iu s) - fst (ns_iu s) -> qc 2 1 * ptol <= snd (ns_iv s) - fst (ns_iv s) ->
  no_new apart c s = Ok false ->
  newton c s = Ok (t, u, v) -> within (nc_interval c) t -> within (ns_iu s) u -> within (ns_iv s) v ->
  evaluate c t = Ok p -> ns_evaluate s u v = Ok q -> len (v3sub p q) = Some l -> l <= tol ->
  csx len newton degenerate apart separable curve_length fuel c s tol = Some (Ok hits) ->
  exists d rest, hits = (d, p, (t, u, v)) :: rest.
Proof.
  intros EL NL ptol P0 PP PU PV NN EN WT WU WV E1 E2 E3 LT. rewrite (csx_as _ _ _ _ _ _ _ _ _ _ EL NL ptol) by reflexivity. clearbody ptol.
  destruct fuel as [|f]; [discriminate|]. cbn [csx_rec].
  assert (forall iv : Qc * Qc, ptol <= snd iv - fst iv -> short ptol iv = false) as SH.
  { intros iv H. unfold short. destruct (Qcltb_spec (Qcabs (snd iv - fst iv)) ptol) as [X|X]; [|reflexivity]. exfalso.
    destruct (Qcabs_cases (snd iv - fst iv)) as [[Y E]|[Y E]]; rewrite E in X; qc_lra. }
  rewrite (SH (nc_interval c) P0), (SH (ns_iu s)), (SH (ns_iv s)) by qc_lra. cbn [orb]. rewrite NN. cbn [lift].
  assert (find_new len newton tol c s = Ok (Some (p, (t, u, v)))) as ->.
  { unfold find_new. rewrite EN. cbn [bind].
    assert (valid_parameter (t, u, v) c s = true) as ->.
    { unfold valid_parameter. rewrite !andb_true_iff. destruct WT, WU, WV. repeat split; qcb; assumption. }
    rewrite E1. cbn [bind]. rewrite E2. cbn [bind]. rewrite E3. assert ((l <=? tol) = true) as -> by (qcb; exact LT). reflexivity. }
  cbn [lift].
  assert (forall a b : Qc, qc 2 1 * ptol <= b - a -> near_to ptol ((a + b) * qc 1 2) a = false /\ near_to ptol ((a + b) * qc 1 2) b = false) as NB.
  { intros a b H. unfold near_to. split.
    - destruct (Qcltb_spec (Qcabs ((a + b) * qc 1 2 - a)) ptol) as [X|X]; [|reflexivity]. exfalso.
      destruct (Qcabs_cases ((a + b) * qc 1 2 - a)) as [[Y E]|[Y E]]; rewrite E in X; qc_lra.
    - destruct (Qcltb_spec (Qcabs ((a + b) * qc 1 2 - b)) ptol) as [X|X]; [|reflexivity]. exfalso.
      destruct (Qcabs_cases ((a + b) * qc 1 2 - b)) as [[Y E]|[Y E]]; rewrite E in X; qc_lra. }
  assert (at_border ptol s ((fst (ns_iu s) + snd (ns_iu s)) * qc 1 2) ((fst (ns_iv s) + snd (ns_iv s)) * qc 1 2) = false) as ->.
  { unfold at_border. destruct (NB _ _ PU) as [-> ->]. destruct (NB _ _ PV) as [-> ->]. reflexivity. }
  destruct (degenerate c s (t, u, v)) as [d| |]; cbn [lift]; try discriminate. cbn [app].
  destruct (at_border ptol s u v). { intros H. exists d, []. congruence. }
  destruct (nc_split c t false) as [[c1 c2]| |]; cbn [lift]; try discriminate.
  destruct (ns_subdivide_at s u v) as [[[[s1 s2] s3] s4]| |]; cbn [lift]; try discriminate.
  intros H. pose proof (loop_grows separable (csx_rec len newton degenerate apart separable tol ptol f) p c1 c2 (rec_grows _ _ _ _ _ _ _ _) [s1; s2; s3; s4] [(d, p, (t, u, v))]) as G.
  rewrite H in G. destruct G as (new & ->). exists d, new. reflexivity.
Qed.
