(** The rejection test of curve-surface intersection. *)
From Coq Require Import List ZArith QArith Qcanon Bool Lia Lqa.
From Verif Require Import Base BaseFacts LoopFacts ModelVec ModelAabb ModelNurbs ModelSurface ModelGjk ModelCsx
  SpecNurbs SpecCurve SpecSurface SpecCcx SpecGjk SpecCsx SpecSsx
  ProofBspline ProofNurbs ProofCurve ProofGjk ProofSurface ProofSurfaceTop ProofCsxPieces ProofCsx ProofCsxTop ProofSsx ProofPolygon.
Import ListNotations.
Local Open Scope Qc_scope.

(** GJK leaves the zero vector when it does not rule out a collision *)
Lemma gjk_zero A B tol : forall n s d r, gjk_loop A B (V3 0 0 0) tol n s d = Ok r -> collides r = true -> closest r = Ok (V3 0 0 0).
Proof.
  induction n as [|n IH]; intros s d r; cbn [gjk_loop]; [intros E _; apply Ok_inj in E; rewrite <- E; reflexivity|].
  destruct (support A B d) as [p| |]; cbn [bind]; try discriminate. destruct (_ <? 0); [intros E C; apply Ok_inj in E; rewrite <- E in C; discriminate|].
  destruct (handle_simplex _ _ _) as [[[hit s'] d']| |]; cbn [bind]; try discriminate. destruct hit; [intros E _; apply Ok_inj in E; rewrite <- E; reflexivity|apply IH].
Qed.
Lemma gjk_apart_sound : forall len tol, 0 <= tol -> len (V3 0 0 0) = Some 0 -> sound_apart (gjk_apart len tol).
Proof.
  intros len tol T L A B. unfold gjk_apart. destruct (gjk A B [] _ _ _) as [r| |] eqn:G; cbn [bind]; try discriminate. destruct (closest r) as [p| |] eqn:C; cbn [bind]; try discriminate.
  intros E. destruct (collides r) eqn:H; [|exact (gjk_false _ _ _ _ _ _ _ G H)]. exfalso. revert G. unfold gjk. destruct (get A 0); cbn [bind]; try discriminate. destruct (get B 0); cbn [bind]; try discriminate.
  destruct (support A B _); cbn [bind]; try discriminate. intros G. apply gjk_zero in G; [|exact H]. rewrite C in G. apply Ok_inj in G. subst p. rewrite L in E. apply Ok_inj in E.
  destruct (Qcltb_spec tol 0) as [X|X]; [exact (Qcle_not_lt _ _ T X)|discriminate].
Qed.

(** a point of the curve is in the hull of the control points *)
Lemma points3d_hull c n u : good_curve c n -> unit_weights (nc_cps c) -> in_curve c n u ->
  exists l p, points3d c = Ok l /\ evaluate c u = Ok p /\ in_hull3 l p.
Proof.
  intros (L & V & H8) W D. assert (positive_weights (nc_cps c)) as PW by (intros q Hq; rewrite (W q Hq); reflexivity).
  exists (map affine (nc_cps c)), (rational_point (nc_knots c) n (nc_degree c) (nc_cps c) u).
  split; [apply (mapM_map _ affine); intros x Hx; apply to_vec3_affine; apply PW; exact Hx|]. split; [apply evaluate_positive; assumption|].
  assert (forall i, (i < S n)%nat -> ww (nth i (nc_cps c) (V4 0 0 0 0)) = 1) as W1 by (intros i Hi; apply W; apply nth_In; lia).
  assert (weight_at (nc_knots c) n (nc_degree c) (nc_cps c) u = 1) as WA by (apply unit_weight_at; assumption).
  exists (basis_at (nc_knots c) n (nc_degree c) u). rewrite map_length, L. split; [intros i; apply basis_at_nonneg; assumption|]. split.
  { rewrite <- WA. unfold weight_at. apply qsum_ext. intros i Hi. rewrite W1 by lia. ring. }
  assert (forall i, (i < S n)%nat -> pt3 (map affine (nc_cps c)) i = V3 (wx (nth i (nc_cps c) (V4 0 0 0 0))) (wy (nth i (nc_cps c) (V4 0 0 0 0))) (wz (nth i (nc_cps c) (V4 0 0 0 0)))) as PE.
  { intros i Hi. unfold pt3. rewrite (nth_indep _ _ (affine (V4 0 0 0 0))) by (rewrite map_length; lia). rewrite (map_nth affine). unfold affine. rewrite (W1 i Hi).
    f_equal; field; discriminate. }
  unfold rational_point. cbv zeta. rewrite WA. cbn [vx vy vz].
  assert (forall x : Qc, x / 1 = x) as D1 by (intros x; field; discriminate). rewrite !D1. unfold weighted_at.
  repeat split; apply qsum_ext; intros i Hi; rewrite (PE i) by lia; rewrite (W1 i) by lia; cbn [vx vy vz]; ring.
Qed.
Lemma reject_sound : forall apart c s t u v p ac au av, sound_apart apart -> cuttable_curve ac c -> cuttable_surf au av s -> crosses_at c s t u v p -> no_new apart c s <> Ok true.
Proof.
  intros apart c s t u v p ac au av SA HC HS (T & U & V & E1 & E2) E.
  destruct (cpiece_start _ _ HC) as (_ & (n & G & _ & W & _ & KC & _) & _). destruct (kpiece_ends _ _ _ _ _ _ KC) as (K1 & _). destruct KC as (_ & _ & _ & K2 & _).
  destruct (spiece_start _ _ _ HS) as (_ & _ & (a & b & GS & _ & _ & WS & _ & KU & KV & _) & _). destruct (kpiece_ends _ _ _ _ _ _ KU) as (U1 & _). destruct (kpiece_ends _ _ _ _ _ _ KV) as (V1 & _).
  destruct KU as (_ & _ & _ & U2 & _). destruct KV as (_ & _ & _ & V2 & _).
  destruct (points3d_hull c n t G W) as (l1 & p1 & P1 & Q1 & H1); [destruct T; split; rewrite ?K1, ?K2; assumption|].
  destruct (flat3d_hull s a b u v GS WS) as (l2 & p2 & P2 & _ & Q2 & H2); [destruct U, V; split; split; rewrite ?U1, ?U2, ?V1, ?V2; assumption|].
  assert (hulls_meet3 l1 l2) as M by (exists p; split; congruence).
  revert E. unfold no_new. rewrite P1, P2. cbn [bind]. destruct (aabb_test l1 l2) as [bb| |] eqn:B; cbn [bind]; try discriminate.
  destruct bb; [intros _; exact (aabb_test_true _ _ B M)|intros A; exact (SA _ _ A M)].
Qed.
Lemma crossing_not_rejected len tol c s t u v p ac au av : 0 <= tol -> len (V3 0 0 0) = Some 0 ->
  cuttable_curve ac c -> cuttable_surf au av s -> crosses_at c s t u v p -> no_new (gjk_apart len tol) c s <> Ok true.
Proof. intros T L. exact (reject_sound _ c s t u v p ac au av (gjk_apart_sound len tol T L)). Qed.

(** boxes apart reject, whatever the other test says *)
Lemma far_rejected apart c s A B ax : points3d c = Ok A -> flat3d s = Ok B -> A <> [] -> B <> [] ->
  (forall a b, In a A -> In b B -> coord a ax < coord b ax) \/ (forall a b, In a A -> In b B -> coord b ax < coord a ax) -> no_new apart c s = Ok true.
Proof.
  intros E1 E2 NA NB H. unfold no_new. rewrite E1, E2. cbn [bind].
  rewrite (proj2 (aabb_test_iff A B NA NB) (ex_intro _ ax H)). reflexivity.
Qed.
Lemma near_decided apart c s A B : points3d c = Ok A -> flat3d s = Ok B -> A <> [] -> B <> [] ->
  (forall ax, exists a b a' b', In a A /\ In b B /\ In a' A /\ In b' B /\ coord b ax <= coord a ax /\ coord a' ax <= coord b' ax) -> no_new apart c s = apart A B.
Proof.
  intros E1 E2 NA NB H. unfold no_new. rewrite E1, E2. cbn [bind]. destruct (aabb_test_ok A B NA NB) as ([|] & T); rewrite T; [|reflexivity].
  exfalso. apply (aabb_test_iff A B NA NB) in T as (ax & K). destruct (H ax) as (a & b & a' & b' & Ia & Ib & Ia' & Ib' & L1 & L2).
  destruct K as [K|K].
  - apply (Qcle_not_lt _ _ L1), K; assumption.
  - apply (Qcle_not_lt _ _ L2), K; assumption.
Qed.
