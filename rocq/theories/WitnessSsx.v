(** Concrete surfaces for the properties of surface-surface intersection. *)
From Coq Require Import List ZArith QArith Qcanon Lqa Lia Bool Permutation.
From Verif Require Import Base BaseFacts ModelVec ModelAabb ModelNurbs ModelSurface ModelSurface2 ModelPolygon ModelGjk ModelBoundary ModelMonomial ModelCsx ModelSsx
  SpecAabb SpecNurbs SpecCurve SpecSurface SpecCcx SpecGjk SpecCsx SpecBoundary SpecSurface2 SpecSsx
  ProofAabb ProofBspline ProofCurve ProofMinimize ProofHull ProofDecompose ProofSurface ProofSurfaceOps ProofSurfaceTop ProofGjk ProofSsx ProofSsxGauss ProofSsxTop
  WitnessNumeric WitnessNurbs WitnessSurface WitnessGjk WitnessCcx WitnessCsx.
Import ListNotations ModelSsx.
Open Scope Qc_scope.

Definition corner (x y z : Z) : vec4 := V4 (qc x 4) (qc y 4) (qc z 4) 1.
(** a bilinear patch over [0,h]^2, coordinates in quarters *)
Definition bilinear (h : Qc) (a b c d : vec4) : nsurf := get_ok ns_none (ns_make [[a; b]; [c; d]] 1 1 [0; 0; h; h] [0; 0; h; h]).

Lemma bilinear_decomposable h s : ns_du s = 1%nat -> ns_dv s = 1%nat -> list_eqb (ns_ku s) [0; 0; h; h] && list_eqb (ns_kv s) [0; 0; h; h] = true ->
  good_surf_b s 1 1 = true -> weights_b s (fun w => 0 <? w) = true -> pair_eqb (ns_iu s) (0, h) && pair_eqb (ns_iv s) (0, h) = true -> lit_1em7 < h - 0 -> decomposable s.
Proof.
  intros D1 D2 K G W I H. apply andb_true_iff in K, I. destruct K as [K1 K2], I as [I1 I2]. apply list_eqb_ok in K1, K2. apply pair_eqb_ok in I1, I2.
  exists 1%nat, 1%nat, 0, [], h, 0, [], h. split; [apply good_surf_b_ok; exact G|]. split; [apply pos_b; exact W|].
  split; [split; [rewrite I1, K1|rewrite I2, K2]; reflexivity|]. rewrite D1, D2, K1, K2. split; [lia|]. split; [lia|].
  split; (split; [reflexivity|]; split; [split; [exact H|exact I]|intros t m []]).
Qed.

(** ** Results computed by running the program *)
Definition only_q (r : res (list nsurf)) : nsurf := match r with Ok [q] => q | _ => ns_none end.
Lemma only_ok r : match r with Ok [_] => true | _ => false end = true -> r = Ok [only_q r].
Proof. destruct r as [[|q [|]]| |]; try discriminate. reflexivity. Qed.
Definition is_ok {A} (r : res A) : bool := match r with Ok _ => true | _ => false end.
Lemma is_ok_ex {A} (r : res A) : is_ok r = true -> exists a, r = Ok a.
Proof. destruct r; try discriminate. eauto. Qed.

(** ** A floor and a wall that stands in it: thin boxes are dropped *)
Definition floor := bilinear 1 (corner (-16) (-16) 0) (corner (-16) 16 0) (corner 16 (-16) 0) (corner 16 16 0).
Definition wall := bilinear 1 (corner 4 (-8) (-8)) (corner 4 8 (-8)) (corner 4 (-8) 8) (corner 4 8 8).
Lemma floor_decomposable : decomposable floor. Proof. apply (bilinear_decomposable 1); vm_compute; reflexivity. Qed.
Lemma wall_decomposable : decomposable wall. Proof. apply (bilinear_decomposable 1); vm_compute; reflexivity. Qed.

Lemma detect_thin csx apart sph tol f s1 g1 s2 g2 out b1 b2 b : ns_bbox_of s1 = Ok b1 -> ns_bbox_of s2 = Ok b2 -> aabb_intersection b1 b2 = Some b ->
  tiny tol b1 = false -> thin tol b = true -> detect csx apart sph tol (S f) (s1, g1) (s2, g2) out = Some (Ok out).
Proof. intros E1 E2 E T1 T2. cbn [detect]. rewrite E1, E2. cbn [lift]. rewrite E, T1, T2. reflexivity. Qed.

Definition box_eqb (a b : aabb) : bool := v3eqb (bmin a) (bmin b) && v3eqb (bmax a) (bmax b).
Lemma box_eqb_ok a b : box_eqb a b = true -> a = b.
Proof. unfold box_eqb. rewrite andb_true_iff. intros [A B]. apply v3eqb_ok in A, B. destruct a, b; cbn in *; congruence. Qed.
Lemma bbox_b s b : match ns_bbox_of s with Ok x => box_eqb x b | _ => false end = true -> ns_bbox_of s = Ok b.
Proof. destruct (ns_bbox_of s) as [x| |]; try discriminate. intros H. f_equal. apply box_eqb_ok. exact H. Qed.

Lemma floor_wall csx apart sph tol f out : 0 <= tol -> tol < qc 2 1 -> find_start csx apart sph tol (S f) floor wall out = Some (Ok out).
Proof.
  intros T0 T1. unfold find_start.
  rewrite (only_ok (ns_decompose floor)) by (vm_compute; reflexivity). rewrite (only_ok (ns_decompose wall)) by (vm_compute; reflexivity). cbn [lift mapM].
  destruct (is_ok_ex (gauss_map (only_q (ns_decompose floor)))) as (g1 & ->); [vm_compute; reflexivity|].
  destruct (is_ok_ex (gauss_map (only_q (ns_decompose wall)))) as (g2 & ->); [vm_compute; reflexivity|]. cbn [bind lift combine outer_loop inner_loop].
  rewrite (detect_thin csx apart sph tol f _ g1 _ g2 out (Box (V3 (qc (-4) 1) (qc (-4) 1) 0) (V3 (qc 4 1) (qc 4 1) 0)) (Box (V3 1 (qc (-2) 1) (qc (-2) 1)) (V3 1 (qc 2 1) (qc 2 1)))
    (Box (V3 1 (qc (-2) 1) 0) (V3 1 (qc 2 1) 0))).
  - reflexivity.
  - apply bbox_b. vm_compute. reflexivity.
  - apply bbox_b. vm_compute. reflexivity.
  - assert (forall r b, match r with Some x => box_eqb x b | None => false end = true -> r = Some b) as H.
    { intros [x|] b H; [|discriminate]. f_equal. apply box_eqb_ok. exact H. }
    apply H. vm_compute. reflexivity.
  - unfold tiny. cbn [bmin bmax v3sub vx vy vz]. destruct (Qcleb_spec (qc 4 1 - qc (-4) 1) tol) as [X|X]; [|reflexivity]. exfalso. qc_lra.
  - unfold thin. cbn [bmin bmax v3sub vx vy vz]. replace (Qcabs (0 - 0)) with 0 by reflexivity.
    assert (0 <=? tol = true) as -> by (apply Qcleb_iff; exact T0). rewrite !orb_true_r. reflexivity.
Qed.
Lemma floor_wall_meet : meet_at floor wall (qc 5 8) (qc 1 2) (qc 1 2) (qc 1 2) (V3 1 0 0).
Proof. split; [repeat split; vm_compute; discriminate|]. split; [repeat split; vm_compute; discriminate|]. split; apply okv_ok; vm_compute; reflexivity. Qed.

Lemma ssx_incomplete : exists s1 s2 u1 v1 u2 v2 p, decomposable s1 /\ decomposable s2 /\ meet_at s1 s2 u1 v1 u2 v2 p /\
  forall csx apart sph tol fuel, 0 <= tol -> tol < qc 2 1 -> find_start csx apart sph tol (S fuel) s1 s2 (SO [] []) = Some (Ok (SO [] [])).
Proof.
  exists floor, wall, (qc 5 8), (qc 1 2), (qc 1 2), (qc 1 2), (V3 1 0 0). split; [exact floor_decomposable|]. split; [exact wall_decomposable|]. split; [exact floor_wall_meet|].
  intros. apply floor_wall; assumption.
Qed.

(** ** A slope over a small square of parameters, with itself *)
Definition small : Qc := qc 3 20000000.
Definition slope_over (h : Qc) := bilinear h (corner 0 0 0) (corner 0 32 32) (corner 32 0 32) (corner 32 32 64).
Definition slope := slope_over small.
Lemma slope_decomposable : decomposable slope. Proof. apply (bilinear_decomposable small); vm_compute; reflexivity. Qed.
Definition slope_q := only_q (ns_decompose slope).
Definition slope_pts : list vec3 := [V3 0 0 0; V3 0 (qc 8 1) (qc 8 1); V3 (qc 8 1) 0 (qc 8 1); V3 (qc 8 1) (qc 8 1) (qc 16 1)].

Lemma slope_subdivide : ns_subdivide slope_q = Throw EInvalidArgument.
Proof.
  assert (forall r : res (nsurf * nsurf * nsurf * nsurf), match r with Throw EInvalidArgument => true | _ => false end = true -> r = Throw EInvalidArgument) as H.
  { intros r. destruct r as [x|e|]; [discriminate| |discriminate]. destruct e; (discriminate || reflexivity). }
  apply H. vm_compute. reflexivity.
Qed.

Lemma slope_throws csx apart sph tol f out : 0 <= tol -> tol < qc 8 1 -> exact_apart apart -> (forall A, A <> [] -> sph A A = Ok false) ->
  find_start csx apart sph tol (S f) slope slope out = Some (Throw EInvalidArgument).
Proof.
  intros T0 T1 HA HS. unfold find_start.
  rewrite (only_ok (ns_decompose slope)) by (vm_compute; reflexivity). fold slope_q. cbn [lift mapM].
  assert (exists g P, gauss_map slope_q = Ok g /\ flat3d g = Ok P /\ P <> []) as (g & P & EG & EP & NP).
  { assert (match gauss_map slope_q with Ok g => match flat3d g with Ok (_ :: _) => true | _ => false end | _ => false end = true) as H by (vm_compute; reflexivity).
    destruct (gauss_map slope_q) as [g| |]; try discriminate. destruct (flat3d g) as [[|x P]| |] eqn:E; try discriminate. exists g, (x :: P). split; [reflexivity|]. split; [exact E|discriminate]. }
  rewrite EG. cbn [bind lift combine outer_loop inner_loop].
  assert (detect csx apart sph tol (S f) (slope_q, g) (slope_q, g) out = Some (Throw EInvalidArgument)) as ->; [|reflexivity].
  cbn [detect].
  rewrite (bbox_b slope_q (Box (V3 0 0 0) (V3 (qc 8 1) (qc 8 1) (qc 16 1)))) by (vm_compute; reflexivity). cbn [lift].
  assert (aabb_intersection (Box (V3 0 0 0) (V3 (qc 8 1) (qc 8 1) (qc 16 1))) (Box (V3 0 0 0) (V3 (qc 8 1) (qc 8 1) (qc 16 1))) = Some (Box (V3 0 0 0) (V3 (qc 8 1) (qc 8 1) (qc 16 1)))) as ->.
  { assert (forall r b, match r with Some x => box_eqb x b | None => false end = true -> r = Some b) as H.
    { intros [x|] b H; [|discriminate]. f_equal. apply box_eqb_ok. exact H. }
    apply H. vm_compute. reflexivity. }
  assert (tiny tol (Box (V3 0 0 0) (V3 (qc 8 1) (qc 8 1) (qc 16 1))) = false) as ->.
  { unfold tiny. cbn [bmin bmax v3sub vx vy vz]. destruct (Qcleb_spec (qc 8 1 - 0) tol) as [X|X]; [|reflexivity]. exfalso. qc_lra. }
  assert (thin tol (Box (V3 0 0 0) (V3 (qc 8 1) (qc 8 1) (qc 16 1))) = false) as ->.
  { unfold thin. cbn [bmin bmax v3sub vx vy vz].
    assert (forall a, tol < a -> (a <=? tol) = false) as LE by (intros a H; destruct (Qcleb_spec a tol) as [X|X]; [exfalso; qc_lra|reflexivity]).
    assert (Qcabs (qc 8 1 - 0) = qc 8 1 /\ Qcabs (qc 16 1 - 0) = qc 16 1) as (-> & ->) by (split; apply Qc_is_canon; vm_compute; reflexivity).
    rewrite (LE (qc 8 1)) by exact T1. rewrite (LE (qc 16 1)) by (eapply Qclt_trans; [exact T1|reflexivity]).
    assert (aabb_volume (Box (V3 0 0 0) (V3 (qc 8 1) (qc 8 1) (qc 16 1))) = qc 1024 1) as -> by (apply Qc_is_canon; vm_compute; reflexivity).
    destruct (Qcltb_spec (qc 1024 1) tol) as [X|X]; [|reflexivity]. exfalso. qc_lra. }
  cbn [andb]. rewrite (okl_ok (flat3d slope_q) slope_pts) by (vm_compute; reflexivity). cbn [lift].
  rewrite (HA slope_pts slope_pts).
  2:{ exists (V3 0 0 0). split; apply (hull_b_ok _ [1; 0; 0; 0]); vm_compute; reflexivity. }
  cbn [lift]. unfold gauss_separable. rewrite EP. cbn [bind]. rewrite (HS P NP). cbn [bind negb lift].
  rewrite slope_subdivide. reflexivity.
Qed.
Lemma ssx_throws : exists s1 s2, decomposable s1 /\ decomposable s2 /\
  forall csx apart sph tol fuel out, 0 <= tol -> tol < qc 8 1 -> exact_apart apart -> (forall A, A <> [] -> sph A A = Ok false) ->
  find_start csx apart sph tol (S fuel) s1 s2 out = Some (Throw EInvalidArgument).
Proof. exists slope, slope. split; [exact slope_decomposable|]. split; [exact slope_decomposable|]. intros. apply slope_throws; assumption. Qed.

(** ** Parallel planes whose Gauss maps count as separable *)
Definition sheet (w : Z) := bilinear 1 (corner 0 0 0) (corner 0 0 2) (corner 0 w 0) (corner 0 w 2).
Definition same_eqb (l : list vec3) (x : vec3) : bool := forallb (v3eqb x) l && Nat.eqb (length l) 4.
Lemma same_ok l x : same_eqb l x = true -> l = [x; x; x; x].
Proof.
  unfold same_eqb. rewrite andb_true_iff. intros [A B]. apply Nat.eqb_eq in B. destruct l as [|a [|b [|c [|d [|]]]]]; try discriminate.
  rewrite forallb_forall in A. pose proof (v3eqb_ok _ _ (A a ltac:(cbn; auto))). pose proof (v3eqb_ok _ _ (A b ltac:(cbn; auto))). pose proof (v3eqb_ok _ _ (A c ltac:(cbn; auto))). pose proof (v3eqb_ok _ _ (A d ltac:(cbn; auto))). congruence.
Qed.
Lemma flat_same g x : match flat3d g with Ok l => same_eqb l x | _ => false end = true -> flat3d g = Ok [x; x; x; x].
Proof. destruct (flat3d g) as [l| |]; try discriminate. intros H. f_equal. apply same_ok. exact H. Qed.

Section Sphere.
Variable len : vec3 -> option Qc.
Variable sort : (vec2 -> vec2 -> bool) -> list vec2 -> list vec2.
Variable keep : list vec2 -> vec2 -> bool.
Hypothesis HL : forall v, v3sq v <= qc 1 4 -> exists l, len v = Some l /\ l <= 1.
Hypothesis HS : forall c l, Permutation (sort c l) l.
Lemma short_unit v : v3sq v <= qc 1 4 -> vunit len v = v.
Proof.
  intros H. unfold vunit. destruct (HL v H) as (l & -> & L). destruct (Qcleb_spec (l - 1) DBL_EPS) as [X|X]; [rewrite orb_true_r; reflexivity|].
  exfalso. apply X. assert (0 <= DBL_EPS) by (vm_compute; discriminate). qc_lra.
Qed.
Lemma four_same_hull p : hull_or_first sort [p; p; p; p] = Ok [p].
Proof.
  assert (lowest_index [p; p; p; p] = Ok 0%nat) as LI.
  { destruct p as [x y]. unfold lowest_index. cbn.
    repeat (match goal with |- context [?a <? ?a] => replace (a <? a) with false by (symmetry; destruct (Qcltb_spec a a) as [K|]; [exfalso; exact (Qclt_irrefl _ K)|reflexivity]) end; rewrite ?andb_false_r; cbn). reflexivity. }
  assert (sort (point_before p) [p; p; p] = [p; p; p]) as ES.
  { assert (forall n l, Permutation l (repeat p n) -> l = repeat p n) as PR.
    { intros n l HP. assert (Forall (eq p) l) as F by (apply (Permutation_Forall (Permutation_sym HP)); apply Forall_forall; intros x Hx; symmetry; apply (repeat_spec _ _ _ Hx)).
      apply Permutation_length in HP. rewrite repeat_length in HP. revert n HP. induction F as [|x l E F IH]; intros [|n] HP; try (cbn in HP; lia); [reflexivity|]. subst x. cbn. f_equal. apply IH. cbn in HP. lia. }
    apply (PR 3%nat). apply HS. }
  unfold hull_or_first. rewrite LI. cbn [bind get nth_error of_option].
  assert (convex_hull2d sort [p; p; p; p] = Ok []) as ->; [|reflexivity].
  unfold convex_hull2d. cbn [length Nat.ltb Nat.leb]. rewrite LI. cbn [bind]. unfold swap_front. cbn [get nth_error of_option bind set_nth].
  rewrite ES.
  assert (orientation p p p = 0%nat) as O.
  { unfold orientation, orient_val. replace ((uy p - uy p) * (ux p - ux p) - (ux p - ux p) * (uy p - uy p)) with 0 by ring. vm_compute. reflexivity. }
  cbn [keep_far]. rewrite O. reflexivity.
Qed.
Lemma project_flat n : v3sq (V3 n 0 0) <= qc 1 4 -> center_projection (V3 0 0 1) (vunit len (V3 n 0 0)) = Ok (V2 n 0).
Proof.
  intros H. rewrite short_unit by exact H. unfold center_projection. cbn [vx vy vz]. assert ((1 =? 0) = false) as -> by reflexivity.
  unfold qdiv. assert ((0 - 1 =? 0) = false) as -> by reflexivity. cbn [bind]. f_equal. f_equal.
  - replace (- (1) / (0 - 1)) with 1 by (apply Qc_is_canon; vm_compute; reflexivity). ring.
Qed.
Lemma sphere_four n k : v3sq (V3 n 0 0) <= qc 1 4 -> v3sq (V3 k 0 0) <= qc 1 4 -> v2eq (V2 k 0) (V2 n 0) = false ->
  spherical_test len sort keep (V3 0 0 1) [V3 n 0 0; V3 n 0 0; V3 n 0 0; V3 n 0 0] [V3 k 0 0; V3 k 0 0; V3 k 0 0; V3 k 0 0] = Ok true.
Proof.
  intros H1 H2 NE. unfold spherical_test. cbn [mapM]. rewrite !(project_flat n H1), !(project_flat k H2). cbn [bind]. rewrite !four_same_hull. cbn [bind sat2d].
  rewrite NE. reflexivity.
Qed.
End Sphere.

Definition sheet_map (w : Z) : nsurf := get_ok ns_none (gauss_map (sheet w)).
Lemma get_ok_ok {A} (d : A) r : is_ok r = true -> r = Ok (get_ok d r).
Proof. destruct r; try discriminate. reflexivity. Qed.

Lemma sheets_separable len sort keep : (forall v, v3sq v <= qc 1 4 -> exists l, len v = Some l /\ l <= 1) -> (forall c l, Permutation (sort c l) l) ->
  gauss_separable (spherical_test len sort keep (V3 0 0 1)) (sheet_map 4) (sheet_map 2) = Ok true.
Proof.
  intros HL HS. unfold gauss_separable. rewrite (flat_same (sheet_map 4) (V3 (qc 1 2) 0 0)) by (vm_compute; reflexivity).
  rewrite (flat_same (sheet_map 2) (V3 (qc 1 4) 0 0)) by (vm_compute; reflexivity). cbn [bind inverse_points map vx vy vz].
  replace (- 0) with 0 by reflexivity.
  rewrite !(sphere_four len sort keep HL HS); try (vm_compute; (reflexivity || discriminate)).
Qed.

Lemma sheet_good w : (w = 2%Z \/ w = 4%Z) -> good_surf (sheet w) 1 1 /\ unit_surf (sheet w) /\ ns_du (sheet w) = 1%nat /\ ns_dv (sheet w) = 1%nat /\ gauss_map (sheet w) = Ok (sheet_map w).
Proof.
  intros [-> | ->].
  - split; [apply good_surf_b_ok; vm_compute; reflexivity|]. split; [apply unit_b; vm_compute; reflexivity|]. split; [vm_compute; reflexivity|]. split; [vm_compute; reflexivity|].
    unfold sheet_map. apply get_ok_ok. vm_compute. reflexivity.
  - split; [apply good_surf_b_ok; vm_compute; reflexivity|]. split; [apply unit_b; vm_compute; reflexivity|]. split; [vm_compute; reflexivity|]. split; [vm_compute; reflexivity|].
    unfold sheet_map. apply get_ok_ok. vm_compute. reflexivity.
Qed.
Lemma sheets_parallel : ns_evaluate (sheet_map 4) (qc 1 3) (qc 1 5) = Ok (V3 (qc 1 2) 0 0) /\ ns_evaluate (sheet_map 2) (qc 1 3) (qc 1 5) = Ok (V3 (qc 1 4) 0 0).
Proof. split; apply okv_ok; vm_compute; reflexivity. Qed.

(** ** A sound test on the sphere: two planes through the centre *)
Definition side (f : vec3 -> Qc) (A B : list vec3) : bool := forallb (fun p => 0 <? f p) A && forallb (fun q => f q <? 0) B.
Definition planes_sph (A B : list vec3) : res bool := Ok (side vx A B || side vx B A || side vy A B || side vy B A).
Lemma hull_weighted (f : vec3 -> Qc) A p : (f = vx \/ f = vy) -> in_hull3 A p -> exists w : nat -> Qc, (forall i, 0 <= w i) /\ qsum w (length A) = 1 /\ f p = qsum (fun i => w i * f (pt3 A i)) (length A).
Proof. intros [-> | ->] (w & W1 & W2 & W3 & W4 & W5); exists w; auto. Qed.
Lemma qsum_pos_le (w g : nat -> Qc) c : forall n, (forall i, (i < n)%nat -> 0 <= w i) -> (forall i, (i < n)%nat -> 0 < c * g i) -> 0 <= c * qsum (fun i => w i * g i) n /\ (c * qsum (fun i => w i * g i) n = 0 -> qsum w n = 0).
Proof.
  induction n as [|n IH]; intros H G; [cbn; split; [replace (c * 0) with 0 by ring; apply Qcle_refl|reflexivity]|].
  destruct IH as (I1 & I2); [intros; apply H; lia|intros; apply G; lia|]. cbn [qsum].
  assert (0 <= w n * (c * g n)) as P by (apply ProofMinimize.Qcmul_nonneg; [apply H; lia|apply Qclt_le_weak, G; lia]).
  replace (c * (qsum (fun i => w i * g i) n + w n * g n)) with (c * qsum (fun i => w i * g i) n + w n * (c * g n)) by ring.
  set (X := c * qsum (fun i => w i * g i) n) in *. set (Y := w n * (c * g n)) in *. split; [clearbody X Y; qc_lra|].
  intros E. assert (X = 0 /\ Y = 0) as (EX & EY) by (clearbody X Y; split; apply Qcle_antisym; qc_lra). rewrite (I2 EX). unfold Y in EY. apply Qcmult_integral in EY.
  destruct EY as [->|EY]; [ring|]. specialize (G n (le_n _)). rewrite EY in G. exfalso. exact (Qclt_irrefl _ G).
Qed.
Lemma hull_side (f : vec3 -> Qc) c A p : (f = vx \/ f = vy) -> (forall q, In q A -> 0 < c * f q) -> in_hull3 A p -> 0 < c * f p.
Proof.
  intros F H HP. destruct (hull_weighted f A p F HP) as (w & W1 & W2 & ->).
  destruct (qsum_pos_le w (fun i => f (pt3 A i)) c (length A)) as (P & Z); [auto|intros i Hi; apply H, nth_In, Hi|].
  destruct (Qcle_lt_or_eq _ _ P) as [L|L]; [exact L|]. symmetry in L. specialize (Z L). rewrite W2 in Z. discriminate Z.
Qed.
Lemma side_sound (f : vec3 -> Qc) A B p q : (f = vx \/ f = vy) -> side f A B = true -> in_hull3 A p -> in_hull3 B q -> 0 < f p /\ f q < 0.
Proof.
  intros F E HP HQ. unfold side in E. apply andb_true_iff in E. destruct E as (E1 & E2). rewrite forallb_forall in E1, E2. split.
  - assert (0 < 1 * f p) as X by (apply (hull_side f 1 A p F); [|exact HP]; intros x Hx; specialize (E1 x Hx); apply Qcltb_iff in E1; replace (1 * f x) with (f x) by ring; exact E1).
    replace (1 * f p) with (f p) in X by ring. exact X.
  - assert (0 < - (1) * f q) as X by (apply (hull_side f (- (1)) B q F); [|exact HQ]; intros x Hx; specialize (E2 x Hx); apply Qcltb_iff in E2; qc_lra). qc_lra.
Qed.
Lemma planes_sound : sound_sphere planes_sph.
Proof.
  intros A B E p q k HP HQ HK EQ. unfold planes_sph in E. injection E as E. rewrite !orb_true_iff in E.
  assert (forall f x y, (f = vx \/ f = vy) -> f x = k * f y -> 0 < f x -> f y < 0 -> False) as C1.
  { intros f x y _ EF X Y. rewrite EF in X. qc_nra. }
  assert (forall f x y, (f = vx \/ f = vy) -> f x = k * f y -> f x < 0 -> 0 < f y -> False) as C2.
  { intros f x y _ EF X Y. rewrite EF in X. qc_nra. }
  assert (vx p = k * vx q /\ vy p = k * vy q) as (EX & EY) by (rewrite EQ; cbn [v3scale vx vy]; split; ring).
  destruct E as [[[E|E]|E]|E].
  - destruct (side_sound vx A B p q (or_introl eq_refl) E HP HQ). apply (C1 vx p q); auto.
  - destruct (side_sound vx B A q p (or_introl eq_refl) E HQ HP). apply (C2 vx p q); auto.
  - destruct (side_sound vy A B p q (or_intror eq_refl) E HP HQ). apply (C1 vy p q); auto.
  - destruct (side_sound vy B A q p (or_intror eq_refl) E HQ HP). apply (C2 vy p q); auto.
Qed.
Definition door1 := bilinear 1 (corner 0 0 0) (corner 0 0 4) (corner (-4) 4 0) (corner (-4) 4 4).
Definition door2 := bilinear 1 (corner 0 0 0) (corner 0 0 4) (corner 4 4 0) (corner 4 4 4).
Definition door1_map := get_ok ns_none (gauss_map door1).
Definition door2_map := get_ok ns_none (gauss_map door2).
Lemma doors_separable : gauss_map door1 = Ok door1_map /\ gauss_map door2 = Ok door2_map /\ good_surf door1_map 1 1 /\ positive_surf door1_map /\ good_surf door2_map 1 1 /\ positive_surf door2_map /\
  gauss_separable planes_sph door1_map door2_map = Ok true.
Proof.
  split; [unfold door1_map; apply get_ok_ok; vm_compute; reflexivity|]. split; [unfold door2_map; apply get_ok_ok; vm_compute; reflexivity|].
  split; [apply good_surf_b_ok; vm_compute; reflexivity|]. split; [apply pos_b; vm_compute; reflexivity|].
  split; [apply good_surf_b_ok; vm_compute; reflexivity|]. split; [apply pos_b; vm_compute; reflexivity|]. vm_compute. reflexivity.
Qed.

(** ** Two slopes that cross, over the unit square *)
Definition rise := bilinear 1 (corner 0 0 0) (corner 0 4 0) (corner 4 0 4) (corner 4 4 4).
Definition fall := bilinear 1 (corner 0 0 4) (corner 0 4 4) (corner 4 0 0) (corner 4 4 0).
Lemma rise_decomposable : decomposable rise. Proof. apply (bilinear_decomposable 1); vm_compute; reflexivity. Qed.
Lemma fall_decomposable : decomposable fall. Proof. apply (bilinear_decomposable 1); vm_compute; reflexivity. Qed.
Definition never_simple (_ _ : list vec3) : res bool := Ok false.
Definition always_simple (_ _ : list vec3) : res bool := Ok true.
Definition two_hits (_ : ncurve) (_ : nsurf) (_ : Qc) : res (list (vec3 * (Qc * Qc * Qc))) :=
  Ok [(V3 (qc 1 2) 0 (qc 1 2), (qc 1 2, qc 1 2, 0)); (V3 (qc 1 2) 1 (qc 1 2), (qc 1 2, qc 1 2, 1))].
Definition crossing_points : ssx_out := match find_start two_hits never_apart never_simple (qc 1 2) 24 rise fall (SO [] []) with Some r => get_ok (SO [] []) r | None => SO [] [] end.
Definition crossing_patch : ssx_out := match find_start two_hits never_apart always_simple (qc 1 2) 24 rise fall (SO [] []) with Some r => get_ok (SO [] []) r | None => SO [] [] end.
Definition is_some_ok {A} (r : option (res A)) : bool := match r with Some (Ok _) => true | _ => false end.
Lemma some_ok_get {A} (d : A) r : is_some_ok r = true -> r = Some (Ok (match r with Some x => get_ok d x | None => d end)).
Proof. destruct r as [[| |]|]; try discriminate. reflexivity. Qed.
Lemma crossing_found : find_start two_hits never_apart never_simple (qc 1 2) 24 rise fall (SO [] []) = Some (Ok crossing_points) /\ (0 < length (so_points crossing_points))%nat.
Proof. split; [unfold crossing_points; apply some_ok_get; vm_compute; reflexivity|vm_compute; repeat constructor]. Qed.
Lemma crossing_traced : find_start two_hits never_apart always_simple (qc 1 2) 24 rise fall (SO [] []) = Some (Ok crossing_patch) /\ length (so_patches crossing_patch) = 1%nat.
Proof. split; [unfold crossing_patch; apply some_ok_get; vm_compute; reflexivity|vm_compute; reflexivity]. Qed.
Lemma crossing_meets : meet_at rise fall (qc 1 2) (qc 1 3) (qc 1 2) (qc 1 3) (V3 (qc 1 2) (qc 1 3) (qc 1 2)).
Proof. split; [repeat split; vm_compute; discriminate|]. split; [repeat split; vm_compute; discriminate|]. split; apply okv_ok; vm_compute; reflexivity. Qed.

Lemma two_hits_answers tol : answers_curves two_hits tol.
Proof.
  intros c s. eexists. split; [reflexivity|]. intros h [<-|[<-|[]]]; (split; [|split]); vm_compute; reflexivity.
Qed.
Definition rise_map := get_ok ns_none (gauss_map rise).
Lemma gauss_case : good_surf rise 1 1 /\ unit_surf rise /\ ns_ku rise = repeat 0 2 ++ repeat 1 2 /\ ns_kv rise = repeat 0 2 ++ repeat 1 2 /\
  gauss_map rise = Ok rise_map /\ ns_evaluate rise_map (qc 1 3) (qc 1 5) = Ok (V3 (- (1)) 0 1).
Proof.
  split; [apply good_surf_b_ok; vm_compute; reflexivity|]. split; [apply unit_b; vm_compute; reflexivity|].
  split; [apply list_eqb_ok; vm_compute; reflexivity|]. split; [apply list_eqb_ok; vm_compute; reflexivity|].
  split; [unfold rise_map; apply get_ok_ok; vm_compute; reflexivity|]. apply okv_ok. vm_compute. reflexivity.
Qed.
Definition whole (P : list vec3) : res (list vec3) := Ok P.
Lemma whole_covers : covers whole. Proof. intros P H p [= <-] I. exact I. Qed.
Lemma far_apart : sat3d whole len_l1 (fun _ _ => false) (qc 1 1000) [V3 0 0 0; V3 1 0 0; V3 0 1 0] [V3 0 0 (qc 5 1); V3 1 0 (qc 5 1)] = Ok true.
Proof. assert (forall r, match r with Ok b => b | _ => false end = true -> r = Ok true) as H by (intros [[|]| |]; (reflexivity || discriminate)). apply H. vm_compute. reflexivity. Qed.
Lemma sheets_witness : exists s1 s2 g1 g2 u v a b, good_surf s1 1 1 /\ unit_surf s1 /\ good_surf s2 1 1 /\ unit_surf s2 /\ gauss_map s1 = Ok g1 /\ gauss_map s2 = Ok g2 /\
  ns_evaluate g1 u v = Ok a /\ ns_evaluate g2 u v = Ok b /\ parallel a b /\
  forall len sort keep, (forall x, v3sq x <= qc 1 4 -> exists l, len x = Some l /\ l <= 1) -> (forall c l, Permutation (sort c l) l) ->
  gauss_separable (spherical_test len sort keep (V3 0 0 1)) g1 g2 = Ok true.
Proof.
  destruct (sheet_good 4 (or_intror eq_refl)) as (A1 & A2 & _ & _ & A5). destruct (sheet_good 2 (or_introl eq_refl)) as (B1 & B2 & _ & _ & B5). destruct sheets_parallel as (P1 & P2).
  exists (sheet 4), (sheet 2), (sheet_map 4), (sheet_map 2), (qc 1 3), (qc 1 5), (V3 (qc 1 2) 0 0), (V3 (qc 1 4) 0 0). split; [exact A1|]. split; [exact A2|]. split; [exact B1|]. split; [exact B2|]. split; [exact A5|]. split; [exact B5|]. split; [exact P1|]. split; [exact P2|].
  split; [|exact sheets_separable]. exists (qc 2 1). split; [vm_compute; discriminate|]. unfold v3scale. cbn [vx vy vz].
  replace (qc 1 4 * qc 2 1) with (qc 1 2) by (apply Qc_is_canon; vm_compute; reflexivity). replace (0 * qc 2 1) with 0 by (apply Qc_is_canon; vm_compute; reflexivity). reflexivity.
Qed.
Lemma len_l1_zero : len_l1 (V3 0 0 0) = Some 0.
Proof. reflexivity. Qed.
