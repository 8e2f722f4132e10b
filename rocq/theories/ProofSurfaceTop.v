(** Surface properties in the form the Props file states them. *)
From Coq Require Import List ZArith QArith Qcanon Bool Lia Lqa Field Permutation.
From Verif Require Import Base BaseFacts LoopFacts ModelVec ModelAabb SpecAabb ProofAabb ModelNurbs ModelSurface SpecNurbs SpecCurve SpecSurface ProofBspline ProofInsertion ProofNurbs ProofInsertCurve ProofInsertKnot ProofCurve ProofSplit ProofSurfaceSums ProofSurface ProofSurfaceOps.
Import ListNotations.
Open Scope Qc_scope.

Lemma surface_evaluate_top : forall s n m u v, good_surf s n m -> in_surf s n m u v -> positive_surf s ->
  ns_evaluate s u v = Ok (surf_point s n m u v) /\ 0 < tensor ww s n m u v.
Proof. intros. split; [apply evaluate_positive_surf|apply tensor_weight_pos]; assumption. Qed.

Lemma sub_patch part s n m n' m' ulo uhi vlo vhi : good_surf s n m -> positive_surf s ->
  lo_u s <= ulo -> uhi <= hi_u s n -> lo_v s <= vlo -> vhi <= hi_v s m ->
  sub_surf part s n m n' m' ulo uhi vlo vhi -> patch_of part s ulo uhi vlo vhi.
Proof.
  intros G W A1 A2 A3 A4 (B1 & B2 & B3 & B4 & B5 & B6 & B7 & B8 & B9 & B10).
  exists n', m'. do 9 (split; [assumption|]). intros u v U1 U2 V1 V2.
  exists (surf_point s n m u v). split.
  - rewrite (evaluate_positive_surf part n' m'); [|assumption| |assumption].
    + unfold surf_point. rewrite !B10 by (assumption || (unfold comp4; auto)). reflexivity.
    + split; split; congruence.
  - apply evaluate_positive_surf; [assumption| |assumption]. unfold lo_u, hi_u, lo_v, hi_v in *. split; split; qc_lra.
Qed.

Lemma ins_perm U k t r : Permutation (ins_knots U k t r) (repeat t r ++ U).
Proof.
  unfold ins_knots. rewrite <- (firstn_skipn (k + 1) U) at 3. rewrite !app_assoc. apply Permutation_app_tail. apply Permutation_app_comm.
Qed.

Lemma insert_u_top : forall s n m t r, good_surf s n m -> positive_surf s -> intervals_current s ->
  knot (ns_ku s) (ns_du s) <= t -> t < knot (ns_ku s) (n + 1) ->
  separated (ns_ku s) t -> (r + multiplicity (ns_ku s) t <= ns_du s)%nat ->
  exists s', ns_insert_u s t r = Ok s' /\ good_surf s' (n + r) m /\
    Permutation (ns_ku s') (repeat t r ++ ns_ku s) /\ ns_kv s' = ns_kv s /\
    patch_of s' s (knot (ns_ku s) (ns_du s)) (knot (ns_ku s) (n + 1)) (knot (ns_kv s) (ns_dv s)) (knot (ns_kv s) (m + 1)).
Proof.
  intros s n m t r G W IC T1 T2 SEP Hr. pose proof G as (_ & _ & _ & _ & VU & _).
  destruct (domain_span _ _ _ _ VU T1 T2) as (k & Hk & K1 & K2).
  destruct (insert_u_sub s n m t r k G W IC Hk K1 K2 SEP Hr) as (s' & E & EU & EV & S).
  exists s'. split; [exact E|]. split; [apply S|]. split; [rewrite EU; apply ins_perm|]. split; [exact EV|].
  eapply sub_patch; try eassumption; apply Qcle_refl.
Qed.
Lemma insert_v_top : forall s n m t r, good_surf s n m -> positive_surf s -> 
  knot (ns_kv s) (ns_dv s) <= t -> t < knot (ns_kv s) (m + 1) ->
  separated (ns_kv s) t -> (r + multiplicity (ns_kv s) t <= ns_dv s)%nat ->
  exists s', ns_insert_v s t r = Ok s' /\ good_surf s' n (m + r) /\
    Permutation (ns_kv s') (repeat t r ++ ns_kv s) /\ ns_ku s' = ns_ku s /\
    patch_of s' s (knot (ns_ku s) (ns_du s)) (knot (ns_ku s) (n + 1)) (knot (ns_kv s) (ns_dv s)) (knot (ns_kv s) (m + 1)).
Proof.
  intros s n m t r G W T1 T2 SEP Hr. pose proof G as (_ & _ & _ & _ & _ & VV & _).
  destruct (domain_span _ _ _ _ VV T1 T2) as (k & Hk & K1 & K2).
  destruct (insert_v_sub s n m t r k G W Hk K1 K2 SEP Hr) as (s' & E & EU & EV & S).
  exists s'. split; [exact E|]. split; [apply S|]. split; [rewrite EV; apply ins_perm|]. split; [exact EU|].
  eapply sub_patch; try eassumption; apply Qcle_refl.
Qed.

Lemma at_edge_false iv t tol : fst iv < t -> t < snd iv -> tol < t - fst iv -> tol < snd iv - t -> at_edge t iv tol = false.
Proof.
  intros A B C D. unfold at_edge.
  assert ((t <=? fst iv) = false) as -> by (qcb; qc_lra). assert ((snd iv <=? t) = false) as -> by (qcb; qc_lra). cbn [orb].
  unfold Qcabs. destruct (Qcltb_spec (t - fst iv) 0); [exfalso; qc_lra|]. destruct (Qcltb_spec (t - snd iv) 0); [|exfalso; qc_lra].
  apply orb_false_intro; qcb; qc_lra.
Qed.
Lemma at_edge_true iv t tol : t <= fst iv + tol \/ snd iv - tol <= t -> 0 <= tol -> at_edge t iv tol = true.
Proof.
  intros H T. unfold at_edge. destruct (Qcleb_spec t (fst iv)); [reflexivity|]. destruct (Qcleb_spec (snd iv) t); [reflexivity|]. cbn [orb].
  unfold Qcabs. apply orb_true_iff. destruct H as [H|H].
  - left. destruct (Qcltb_spec (t - fst iv) 0); qcb; qc_lra.
  - right. destruct (Qcltb_spec (t - snd iv) 0); qcb; qc_lra.
Qed.

Lemma split_throws_top : forall s t tol, 0 <= tol ->
  (t <= fst (ns_iu s) + tol \/ snd (ns_iu s) - tol <= t -> ns_split_u s t tol = Throw EInvalidArgument) /\
  (t <= fst (ns_iv s) + tol \/ snd (ns_iv s) - tol <= t -> ns_split_v s t tol = Throw EInvalidArgument).
Proof.
  intros s t tol T. split; intros H; [unfold ns_split_u|unfold ns_split_v]; rewrite at_edge_true by assumption; reflexivity.
Qed.

Lemma interval_bounds U n p : valid_knots n p U -> knot U 0 <= knot U p /\ knot U (n + 1) <= knot U (length U - 1).
Proof. intros (A & B & C & _). pose proof (sorted_mono U C) as M. split; apply M; lia. Qed.

(** strictly inside the domain by more than the tolerance *)
Definition inner (t tol : Qc) (lo hi : Qc) : Prop := lo < t /\ t < hi /\ tol < t - lo /\ tol < hi - t.

Lemma inner_edge_u s n m t tol : good_surf s n m -> intervals_current s ->
  inner t tol (lo_u s) (hi_u s n) -> at_edge t (ns_iu s) tol = false.
Proof.
  intros (_ & _ & _ & _ & VU & _) (I & _) (A & B & C & D). destruct (interval_bounds _ _ _ VU) as [X Y]. unfold lo_u, hi_u in *.
  apply at_edge_false; rewrite I; cbn [fst snd]; qc_lra.
Qed.
Lemma inner_edge_v s n m t tol : good_surf s n m -> intervals_current s ->
  inner t tol (lo_v s) (hi_v s m) -> at_edge t (ns_iv s) tol = false.
Proof.
  intros (_ & _ & _ & _ & _ & VV & _) (_ & I) (A & B & C & D). destruct (interval_bounds _ _ _ VV) as [X Y]. unfold lo_v, hi_v in *.
  apply at_edge_false; rewrite I; cbn [fst snd]; qc_lra.
Qed.

Lemma split_u_top : forall s n m t tol, good_surf s n m -> positive_surf s -> intervals_current s -> (1 <= ns_du s)%nat ->
  let lo := knot (ns_ku s) (ns_du s) in let hi := knot (ns_ku s) (n + 1) in
  lo < t /\ t < hi /\ tol < t - lo /\ tol < hi - t ->
  separated (ns_ku s) t -> (multiplicity (ns_ku s) t <= ns_du s)%nat ->
  exists s1 s2, ns_split_u s t tol = Ok (s1, s2) /\
    patch_of s1 s lo t (knot (ns_kv s) (ns_dv s)) (knot (ns_kv s) (m + 1)) /\
    patch_of s2 s t hi (knot (ns_kv s) (ns_dv s)) (knot (ns_kv s) (m + 1)).
Proof.
  intros s n m t tol G W IC H1 lo hi IN SEP Hm. pose proof G as (_ & _ & _ & _ & VU & _). pose proof IN as (I1 & I2 & I3 & I4).
  destruct (domain_span _ _ _ _ VU (Qclt_le_weak _ _ I1) I2) as (k & Hk & K1 & K2).
  destruct (split_u_ok s n m t tol k G W IC H1) as (s1 & s2 & n1 & n2 & E & _ & _ & _ & _ & S1 & S2); try assumption.
  { eapply inner_edge_u; eassumption. }
  exists s1, s2. split; [exact E|]. split; (eapply sub_patch; [exact G|exact W| | | | |eassumption]); try apply Qcle_refl;
    unfold lo, hi, lo_u, hi_u in *; qc_lra.
Qed.
Lemma split_v_top : forall s n m t tol, good_surf s n m -> positive_surf s -> intervals_current s -> (1 <= ns_dv s)%nat ->
  let lo := knot (ns_kv s) (ns_dv s) in let hi := knot (ns_kv s) (m + 1) in
  lo < t /\ t < hi /\ tol < t - lo /\ tol < hi - t ->
  separated (ns_kv s) t -> (multiplicity (ns_kv s) t <= ns_dv s)%nat ->
  exists s1 s2, ns_split_v s t tol = Ok (s1, s2) /\
    patch_of s1 s (knot (ns_ku s) (ns_du s)) (knot (ns_ku s) (n + 1)) lo t /\
    patch_of s2 s (knot (ns_ku s) (ns_du s)) (knot (ns_ku s) (n + 1)) t hi.
Proof.
  intros s n m t tol G W IC H1 lo hi IN SEP Hm. pose proof G as (_ & _ & _ & _ & _ & VV & _). pose proof IN as (I1 & I2 & I3 & I4).
  destruct (domain_span _ _ _ _ VV (Qclt_le_weak _ _ I1) I2) as (k & Hk & K1 & K2).
  destruct (split_v_ok s n m t tol k G W H1) as (s1 & s2 & n1 & n2 & E & _ & _ & _ & _ & S1 & S2); try assumption.
  { eapply inner_edge_v; eassumption. }
  exists s1, s2. split; [exact E|]. split; (eapply sub_patch; [exact G|exact W| | | | |eassumption]); try apply Qcle_refl;
    unfold lo, hi, lo_v, hi_v in *; qc_lra.
Qed.

Lemma sub_trans a b s n m n1 m1 n2 m2 ul uh vl vh ul' uh' vl' vh' :
  sub_surf b s n m n1 m1 ul uh vl vh -> sub_surf a b n1 m1 n2 m2 ul' uh' vl' vh' ->
  ul <= ul' -> uh' <= uh -> vl <= vl' -> vh' <= vh -> sub_surf a s n m n2 m2 ul' uh' vl' vh'.
Proof.
  intros (A1 & A2 & A3 & A4 & A5 & A6 & A7 & A8 & A9 & A10) (B1 & B2 & B3 & B4 & B5 & B6 & B7 & B8 & B9 & B10) H1 H2 H3 H4.
  split; [assumption|]. split; [congruence|]. split; [congruence|]. do 6 (split; [assumption|]).
  intros u v U1 U2 V1 V2 c Hc. rewrite B10 by assumption. apply A10; try assumption; qc_lra.
Qed.

Lemma subdivide_top : forall s n m u0 v0, good_surf s n m -> positive_surf s -> intervals_current s ->
  (1 <= ns_du s)%nat -> (1 <= ns_dv s)%nat ->
  let a := knot (ns_ku s) (ns_du s) in let b := knot (ns_ku s) (n + 1) in
  let c := knot (ns_kv s) (ns_dv s) in let d := knot (ns_kv s) (m + 1) in
  a < u0 /\ u0 < b /\ lit_1em7 < u0 - a /\ lit_1em7 < b - u0 ->
  c < v0 /\ v0 < d /\ lit_1em7 < v0 - c /\ lit_1em7 < d - v0 ->
  separated (ns_ku s) u0 -> (multiplicity (ns_ku s) u0 <= ns_du s)%nat ->
  separated (ns_kv s) v0 -> (multiplicity (ns_kv s) v0 <= ns_dv s)%nat ->
  exists s11 s12 s21 s22, ns_subdivide_at s u0 v0 = Ok (s11, s12, s21, s22) /\
    patch_of s11 s a u0 c v0 /\ patch_of s12 s a u0 v0 d /\ patch_of s21 s u0 b c v0 /\ patch_of s22 s u0 b v0 d.
Proof.
  intros s n m u0 v0 G W IC H1 H2 a b c d IU IV SU MU SV MV. pose proof G as (_ & _ & _ & _ & VU & VV & _).
  pose proof IU as (IU1 & IU2 & _). pose proof IV as (IV1 & IV2 & _).
  destruct (domain_span _ _ _ _ VU (Qclt_le_weak _ _ IU1) IU2) as (k & Hk & K1 & K2).
  destruct (domain_span _ _ _ _ VV (Qclt_le_weak _ _ IV1) IV2) as (l & Hl & L1 & L2).
  destruct (split_u_ok s n m u0 lit_1em7 k G W IC H1) as (s1 & s2 & n1 & n2 & E & EV1 & EV2 & _ & _ & S1 & S2); try assumption.
  { eapply inner_edge_u; eassumption. }
  unfold ns_subdivide_at. rewrite E. cbn [bind].
  assert (forall part k0 ul uh, ns_kv part = ns_kv s -> sub_surf part s n m k0 m ul uh c d ->
    exists p1 p2 m1 m2, ns_split_v part v0 lit_1em7 = Ok (p1, p2) /\
      sub_surf p1 part k0 m k0 m1 ul uh c v0 /\ sub_surf p2 part k0 m k0 m2 ul uh v0 d) as SPL.
  { intros part k0 ul uh EK (A1 & A2 & A3 & A4 & A5 & A6 & A7 & A8 & A9 & _).
    destruct (split_v_ok part k0 m v0 lit_1em7 l A1 A4) as (p1 & p2 & m1 & m2 & E' & _ & _ & _ & _ & P1 & P2);
      rewrite ?A3, ?EK; try assumption.
    - eapply inner_edge_v; try eassumption. unfold lo_v, hi_v. rewrite A8, A9. exact IV.
    - unfold lo_v. rewrite A8. assumption.
    - exists p1, p2, m1, m2. split; [exact E'|]. unfold lo_u, hi_u, lo_v, hi_v in P1, P2. rewrite A6, A7, A8 in P1. rewrite A6, A7, A9 in P2. split; assumption. }
  destruct (SPL s1 n1 _ _ EV1 S1) as (s11 & s12 & m1 & m2 & E1 & P11 & P12).
  destruct (SPL s2 n2 _ _ EV2 S2) as (s21 & s22 & m3 & m4 & E2 & P21 & P22).
  rewrite E1. cbn [bind]. rewrite E2. cbn [bind]. exists s11, s12, s21, s22. split; [reflexivity|].
  unfold lo_u, hi_u, lo_v, hi_v in *. fold a b c d in S1, S2, P11, P12, P21, P22.
  assert (a <= u0) by (apply Qclt_le_weak; assumption). assert (u0 <= b) by (apply Qclt_le_weak; assumption).
  assert (c <= v0) by (apply Qclt_le_weak; assumption). assert (v0 <= d) by (apply Qclt_le_weak; assumption).
  pose proof (fun x => Qcle_refl x) as RF.
  split; [|split; [|split]].
  - eapply sub_patch; [exact G|exact W| | | | |eapply sub_trans; [exact S1|exact P11|..]]; auto.
  - eapply sub_patch; [exact G|exact W| | | | |eapply sub_trans; [exact S1|exact P12|..]]; auto.
  - eapply sub_patch; [exact G|exact W| | | | |eapply sub_trans; [exact S2|exact P21|..]]; auto.
  - eapply sub_patch; [exact G|exact W| | | | |eapply sub_trans; [exact S2|exact P22|..]]; auto.
Qed.

Lemma clamped_ends n p U : valid_knots n p U -> clamped n p U -> knot U 0 = knot U p /\ knot U (length U - 1) = knot U (n + 1).
Proof.
  intros (V1 & V2 & _) [C1 C2]. split; [symmetry; apply C1; lia|]. rewrite V2. apply C2; lia.
Qed.
Lemma subdivide_halves : forall s n m, good_surf s n m -> positive_surf s -> intervals_current s ->
  clamped n (ns_du s) (ns_ku s) -> clamped m (ns_dv s) (ns_kv s) -> (1 <= ns_du s)%nat -> (1 <= ns_dv s)%nat ->
  let a := knot (ns_ku s) (ns_du s) in let b := knot (ns_ku s) (n + 1) in
  let c := knot (ns_kv s) (ns_dv s) in let d := knot (ns_kv s) (m + 1) in
  let u0 := (a + b) / qc 2 1 in let v0 := (c + d) / qc 2 1 in
  lit_1em7 < u0 - a -> lit_1em7 < v0 - c ->
  separated (ns_ku s) u0 -> (multiplicity (ns_ku s) u0 <= ns_du s)%nat ->
  separated (ns_kv s) v0 -> (multiplicity (ns_kv s) v0 <= ns_dv s)%nat ->
  exists s11 s12 s21 s22, ns_subdivide s = Ok (s11, s12, s21, s22) /\
    patch_of s11 s a u0 c v0 /\ patch_of s12 s a u0 v0 d /\ patch_of s21 s u0 b c v0 /\ patch_of s22 s u0 b v0 d.
Proof.
  intros s n m G W IC CU CV H1 H2 a b c d u0 v0 A B SU MU SV MV. pose proof G as (_ & _ & _ & _ & VU & VV & _).
  assert (ns_subdivide s = ns_subdivide_at s u0 v0) as ->.
  { unfold ns_subdivide. destruct IC as [-> ->]. cbn [fst snd].
    destruct (clamped_ends _ _ _ VU CU) as [-> ->]. destruct (clamped_ends _ _ _ VV CV) as [-> ->]. fold a b c d. unfold u0, v0.
    assert (forall x y : Qc, qc 1 2 * (y + x) = (x + y) / qc 2 1) as E.
    { intros x y. change (qc 1 2) with (/ qc 2 1). unfold Qcdiv. ring. }
    rewrite !E. reflexivity. }
  assert (forall x y : Qc, let h := (x + y) / qc 2 1 in lit_1em7 < h - x -> x < h /\ h < y /\ lit_1em7 < h - x /\ lit_1em7 < y - h) as HALF.
  { intros x y h H. assert (y - h = h - x) as E. { unfold h. change (qc 2 1) with (1 + 1). field. discriminate. }
    rewrite E. assert (0 < lit_1em7) as P by reflexivity. assert (0 < h - x) as Q by (eapply Qclt_trans; eassumption).
    repeat split; try assumption; [clear - Q|rewrite <- E in Q; clear - Q]; qc_lra. }
  apply (subdivide_top s n m u0 v0); try assumption; apply HALF; assumption.
Qed.

(** ** the box *)
Definition affine (q : vec4) : vec3 := V3 (wx q / ww q) (wy q / ww q) (wz q / ww q).

Lemma to_vec3_affine q : 0 < ww q -> to_vec3 q = Ok (affine q).
Proof. intros H. unfold to_vec3. rewrite !qdiv_ok by (intros E; rewrite E in H; qc_lra). reflexivity. Qed.

Lemma tensor_lin (f g : vec4 -> Qc) k s n m u v : tensor (fun q => f q - k * g q) s n m u v = tensor f s n m u v - k * tensor g s n m u v.
Proof.
  unfold tensor. replace (qsum _ _ - k * qsum _ _) with (qsum (fun i => qsum (fun j =>
    basis_at (ns_ku s) n (ns_du s) u i * basis_at (ns_kv s) m (ns_dv s) v j * f (cp (ns_cps s) i j)) (S m)) (S n) +
    qsum (fun i => (- k) * qsum (fun j =>
    basis_at (ns_ku s) n (ns_du s) u i * basis_at (ns_kv s) m (ns_dv s) v j * g (cp (ns_cps s) i j)) (S m)) (S n)).
  2:{ rewrite qsum_scale. ring. }
  rewrite <- qsum_add. apply qsum_ext. intros i _. rewrite <- qsum_scale, <- qsum_add. apply qsum_ext. intros j _. ring.
Qed.

Lemma Qcdiv_le_r (a b k : Qc) : 0 < b -> k * b <= a -> k <= a / b.
Proof.
  intros H L. assert (0 <= (a - k * b) / b) by (apply Qcdiv_nonneg; qc_lra).
  assert ((a - k * b) / b = a / b - k) as E by (field; intros Z; rewrite Z in H; qc_lra). rewrite E in H0. qc_lra.
Qed.
Lemma Qcdiv_le_l (a b k : Qc) : 0 < b -> a <= k * b -> a / b <= k.
Proof.
  intros H L. assert (0 <= (k * b - a) / b) by (apply Qcdiv_nonneg; qc_lra).
  assert ((k * b - a) / b = k - a / b) as E by (field; intros Z; rewrite Z in H; qc_lra). rewrite E in H0. qc_lra.
Qed.
Lemma Qcdiv_mul (a b : Qc) : 0 < b -> a = a / b * b.
Proof. intros H. field. intros Z. rewrite Z in H. qc_lra. Qed.

Lemma tensor_between s n m u v (f : vec4 -> Qc) lo hi : good_surf s n m -> in_surf s n m u v -> positive_surf s ->
  (forall i j, (i < S n)%nat -> (j < S m)%nat -> lo <= f (cp (ns_cps s) i j) / ww (cp (ns_cps s) i j) /\
     f (cp (ns_cps s) i j) / ww (cp (ns_cps s) i j) <= hi) ->
  lo <= tensor f s n m u v / tensor ww s n m u v /\ tensor f s n m u v / tensor ww s n m u v <= hi.
Proof.
  intros G D W H. pose proof (tensor_weight_pos s n m u v G D W) as TW.
  assert (0 <= tensor f s n m u v - lo * tensor ww s n m u v) as A.
  { rewrite <- tensor_lin. apply tensor_lower; [assumption|assumption|]. intros i j Hi Hj. destruct (H i j Hi Hj) as [A _].
    pose proof (positive_cp s n m G W i j Hi Hj) as P. rewrite (Qcdiv_mul (f (cp (ns_cps s) i j)) _ P).
    set (x := f _ / _) in *. set (w := ww _) in *. qc_nra. }
  assert (0 <= hi * tensor ww s n m u v - tensor f s n m u v) as B.
  { replace (hi * tensor ww s n m u v - tensor f s n m u v) with (0 - (tensor f s n m u v - hi * tensor ww s n m u v)) by ring.
    assert (tensor f s n m u v - hi * tensor ww s n m u v <= 0); [|qc_lra].
    assert (0 <= tensor (fun q => hi * ww q - 1 * f q) s n m u v) as C.
    { apply tensor_lower; [assumption|assumption|]. intros i j Hi Hj. destruct (H i j Hi Hj) as [_ B].
      pose proof (positive_cp s n m G W i j Hi Hj) as P. rewrite (Qcdiv_mul (f (cp (ns_cps s) i j)) _ P).
      set (x := f _ / _) in *. set (w := ww _) in *. qc_nra. }
    rewrite (tensor_lin (fun q => hi * ww q) f 1) in C.
    assert (tensor (fun q => hi * ww q) s n m u v = hi * tensor ww s n m u v) as E.
    { unfold tensor. rewrite <- qsum_scale. apply qsum_ext. intros i _. rewrite <- qsum_scale. apply qsum_ext. intros j _. ring. }
    rewrite E in C. qc_lra. }
  split; [apply Qcdiv_le_r|apply Qcdiv_le_l]; try assumption; qc_lra.
Qed.

Lemma bbox_top : forall s n m, good_surf s n m -> positive_surf s ->
  exists b, ns_bbox_of s = Ok b /\
    (forall u v, in_surf s n m u v -> exists pt, ns_evaluate s u v = Ok pt /\ inside b pt) /\
    (forall b', (forall row q, In row (ns_cps s) -> In q row -> inside b' (V3 (wx q / ww q) (wy q / ww q) (wz q / ww q))) -> subbox b b').
Proof.
  intros s n m G W. pose proof G as (G1 & G2 & G3 & G4 & _). pose proof (positive_cp s n m G W) as PC.
  unfold ns_bbox_of. rewrite (get2_nat _ 0 0) by (rewrite ?(good_rows s n m 0 G); lia). cbn [bind].
  rewrite to_vec3_affine by (apply PC; lia). cbn [bind]. rewrite G3, G4.
  rewrite (mapM_map _ (fun i => map (fun j => affine (cp (ns_cps s) i j)) (seq 0 (S m)))).
  2:{ intros i Hi. apply in_seq in Hi. apply mapM_map. intros j Hj. apply in_seq in Hj.
      rewrite get2_nat by (rewrite ?(good_rows s n m i G); lia). cbn [bind]. apply to_vec3_affine. apply PC; lia. }
  cbn [bind]. remember (concat (map (fun i => map (fun j => affine (cp (ns_cps s) i j)) (seq 0 (S m))) (seq 0 (S n)))) as pts eqn:EP. eexists. split; [reflexivity|].
  assert (forall x, In x pts <-> exists i j, (i < S n)%nat /\ (j < S m)%nat /\ x = affine (cp (ns_cps s) i j)) as IP.
  { intros x. rewrite EP, in_concat. split.
    - intros (l & Hl & Hx). apply in_map_iff in Hl. destruct Hl as (i & <- & Hi). apply in_map_iff in Hx. destruct Hx as (j & <- & Hj).
      apply in_seq in Hi. apply in_seq in Hj. exists i, j. split; [lia|]. split; [lia|reflexivity].
    - intros (i & j & Hi & Hj & ->). exists (map (fun j => affine (cp (ns_cps s) i j)) (seq 0 (S m))). split.
      + apply in_map_iff. exists i. split; [reflexivity|]. apply in_seq. lia.
      + apply in_map_iff. exists j. split; [reflexivity|]. apply in_seq. lia. }
  set (p0 := affine (cp (ns_cps s) 0 0)).
  assert (In p0 pts) as I0 by (apply IP; exists 0%nat, 0%nat; split; [lia|]; split; [lia|reflexivity]).
  destruct (of_points_tight (p0 :: pts)) as (b & Eb & _ & H1 & H2); [discriminate|].
  unfold aabb_of_points in Eb. injection Eb as Eb. fold p0. rewrite Eb.
  split.
  - intros u v D. exists (surf_point s n m u v). split; [apply evaluate_positive_surf; assumption|].
    intros ax. assert (forall i j, (i < S n)%nat -> (j < S m)%nat -> inside b (affine (cp (ns_cps s) i j))) as HB.
    { intros i j Hi Hj. apply H1. right. apply IP. eauto 10. }
    destruct ax; cbn [coord surf_point vx vy vz]; apply tensor_between; try assumption; intros i j Hi Hj; specialize (HB i j Hi Hj).
    + exact (HB AX). + exact (HB AY). + exact (HB AZ).
  - intros b' Hb'. apply H2. intros x Hx. assert (In x pts) as Hx' by (destruct Hx as [<-|Hx]; assumption). apply IP in Hx'. destruct Hx' as (i & j & Hi & Hj & ->).
    destruct (cp_in s n m i j G Hi Hj). eapply Hb'; eassumption.
Qed.

(** ** isocurves *)
Lemma comp4_add c a b k : comp4 c -> c (v4add a (v4scale b k)) = c a + k * c b.
Proof. intros [-> |[-> |[-> | ->]]]; cbn; ring. Qed.

Lemma iso_point_ok pts deg basis (g : nat -> vec4) : (deg < length basis)%nat -> (forall j, (j <= deg)%nat -> pts j = Ok (g j)) ->
  exists x, iso_point pts deg basis = Ok x /\ forall c, comp4 c -> c x = qsum (fun j => nth j basis 0 * c (g j)) (S deg).
Proof.
  intros L H. unfold iso_point.
  destruct (for_up_inv (fun k a => forall c, comp4 c -> c a = qsum (fun j => nth j basis 0 * c (g j)) k)
    (fun j acc => p <- pts j ;; b <- get basis j ;; Ok (v4add acc (v4scale p b))) (deg + 1) 0 v4zero) as (x & E & S).
  - intros c [-> |[-> |[-> | ->]]]; reflexivity.
  - intros j a _ Hj S. rewrite H by lia. cbn [bind]. rewrite (get_ok _ _ 0) by lia. cbn [bind]. eexists. split; [reflexivity|].
    intros c Hc. rewrite comp4_add by assumption. rewrite S by assumption. cbn [qsum]. reflexivity.
  - exists x. split; [exact E|]. intros c Hc. rewrite S by assumption. rewrite Nat.add_0_l, Nat.add_1_r. reflexivity.
Qed.

Lemma make_size_ok size degree : (degree <= size)%nat ->
  exists c, nc_make_size size degree = Ok c /\ nc_degree c = degree /\ length (nc_knots c) = (size + degree + 1)%nat /\ nc_periodic c = false /\ nc_aabb c = aabb_default.
Proof.
  intros H. unfold nc_make_size, generate_knots. cbn [nc_cps nc_degree]. rewrite repeat_length. unfold gen_knots.
  destruct (Nat.ltb_spec size degree); [lia|]. cbn [bind]. set (k := repeat 0 (degree + 1) ++ _).
  assert (exists a b, min_of k = Ok a /\ max_of k = Ok b) as (a & b & E1 & E2).
  { unfold k. rewrite Nat.add_1_r. cbn [repeat app min_of max_of]. eauto. }
  unfold update_interval. cbn [nc_set_knots nc_knots]. rewrite E1. cbn [bind]. rewrite E2. cbn [bind]. unfold nc_set_interval, nc_set_knots. cbn [nc_knots nc_cps nc_degree nc_periodic nc_hull nc_aabb]. rewrite E1. cbn [bind]. rewrite E2. cbn [bind].
  eexists. split; [reflexivity|]. cbn [nc_degree nc_knots nc_periodic nc_aabb]. split; [reflexivity|]. split; [|split; reflexivity].
  unfold k. rewrite !app_length, !repeat_length, map_length, seq_length. lia.
Qed.

(** The curve an isocurve is, up to bookkeeping *)
Lemma isocurve_ok s n m t (dir : bool) : good_surf s n m -> intervals_current s ->
  (if dir then in_domain n (ns_du s) (ns_ku s) t else in_domain m (ns_dv s) (ns_kv s) t) ->
  exists c, ns_isocurve s t dir = Ok c /\ nc_knots c = (if dir then ns_kv s else ns_ku s) /\
    nc_degree c = (if dir then ns_dv s else ns_du s) /\ length (nc_cps c) = S (if dir then m else n) /\
    interval_current c /\ nc_periodic c = false /\ nc_aabb c = aabb_default /\
    forall i f, (i < S (if dir then m else n))%nat -> comp4 f -> f (nth i (nc_cps c) d4) =
      (if dir then qsum (fun k => basis_at (ns_ku s) n (ns_du s) t k * f (cp (ns_cps s) k i)) (S n)
       else qsum (fun k => basis_at (ns_kv s) m (ns_dv s) t k * f (cp (ns_cps s) i k)) (S m)).
Proof.
  intros G (IU & IV) D. pose proof G as (G1 & G2 & G3 & G4 & VU & VV & H8 & H8').
  unfold ns_isocurve.
  assert ((t <? fst (if dir then ns_iu s else ns_iv s)) || (snd (if dir then ns_iu s else ns_iv s) <? t) = false) as ->.
  { destruct dir; rewrite ?IU, ?IV; cbn [fst snd]; destruct D as [D1 D2].
    - destruct (interval_bounds _ _ _ VU). apply orb_false_intro; qcb; qc_lra.
    - destruct (interval_bounds _ _ _ VV). apply orb_false_intro; qcb; qc_lra. }
  set (N := if dir then n else m). set (M := if dir then m else n). set (p := if dir then ns_du s else ns_dv s).
  set (q := if dir then ns_dv s else ns_du s). set (K := if dir then ns_ku s else ns_kv s). set (K' := if dir then ns_kv s else ns_ku s).
  assert (valid_knots N p K) as VK by (unfold N, p, K; destruct dir; assumption).
  assert (valid_knots M q K') as VK' by (unfold M, q, K'; destruct dir; assumption).
  assert (in_domain N p K t) as DK by (unfold N, p, K; destruct dir; assumption).
  assert (p <= 8)%nat as P8 by (unfold p; destruct dir; assumption).
  assert ((if dir then ns_su s else ns_sv s) = S N) as -> by (unfold N; destruct dir; assumption).
  assert ((if dir then ns_sv s else ns_su s) = S M) as -> by (unfold M; destruct dir; assumption).
  cbn [last_index surf_span].
  destruct (find_span_spec _ _ _ _ VK DK) as (sp & E1 & HU & IS). pose proof IS as (LS & _).
  rewrite E1. cbn [bind]. pose proof VK as (PK & LK & SK & _). pose proof VK' as (PK' & LK' & SK' & _).
  destruct (basis_funs_spec K t sp p zeros) as (B & E3 & L3 & B3 & _);
    [apply sorted_mono; assumption|eapply valid_span_ok; eassumption|assumption|assumption|lia|reflexivity|].
  rewrite E3. cbn [bind].
  destruct (make_size_ok (S M) q ltac:(lia)) as (c0 & E4 & C1 & C2 & C3 & C4). rewrite E4. cbn [bind].
  rewrite update_interval_sorted; [|exact SK'|eapply valid_nonempty; exact VK']. cbn [bind nc_set_knots nc_knots].
  match goal with |- context [mapM ?f (seq 0 (S M))] =>
    destruct (mapM_ex f (fun i x => forall c, comp4 c -> c x = if dir then qsum (fun k => basis_at (ns_ku s) n (ns_du s) t k * c (cp (ns_cps s) k i)) (S n)
       else qsum (fun k => basis_at (ns_kv s) m (ns_dv s) t k * c (cp (ns_cps s) i k)) (S m)) (seq 0 (S M))) as (cps & Ec & Fc) end.
  { intros i Hi. apply in_seq in Hi.
    destruct (iso_point_ok (fun j => let idx := (Z.of_nat sp - Z.of_nat p + Z.of_nat j)%Z in
        if dir then get2 (ns_cps s) idx (Z.of_nat i) else get2 (ns_cps s) (Z.of_nat i) idx) p B
        (fun j => if dir then cp (ns_cps s) (sp - p + j) i else cp (ns_cps s) i (sp - p + j))) as (x & Ex & Sx).
    - lia.
    - intros j Hj. cbv zeta. replace (Z.of_nat sp - Z.of_nat p + Z.of_nat j)%Z with (Z.of_nat (sp - p + j)) by lia.
      unfold N, M in *. destruct dir; apply get2_nat; rewrite ?(good_rows s n m _ G); lia.
    - exists x. split; [exact Ex|]. intros c Hc. rewrite Sx by assumption.
      rewrite (qsum_ext _ (fun j => bsp (knot K) sp p (sp - p + j) t * c (if dir then cp (ns_cps s) (sp - p + j) i else cp (ns_cps s) i (sp - p + j)))).
      2:{ intros j Hj. rewrite B3 by lia. reflexivity. }
      rewrite <- (bsp_sum_support (knot K) sp p t (fun j => c (if dir then cp (ns_cps s) j i else cp (ns_cps s) i j)) (S N)) by lia.
      unfold N, p, K in *. destruct dir; apply qsum_ext; intros k Hk; rewrite (basis_at_bsp _ _ _ t sp) by assumption; reflexivity. }
  rewrite Ec. cbn [bind].
  pose proof (Forall2_length _ _ _ Fc) as Lc. rewrite seq_length in Lc.
  assert (exists c, (if dir then update_interval (nc_set_cps (nc_set_interval (nc_set_knots c0 K') (knot K' 0, knot K' (length K' - 1))) cps)
     else Ok (nc_set_cps (nc_set_interval (nc_set_knots c0 K') (knot K' 0, knot K' (length K' - 1))) cps)) = Ok c /\
     c = nc_set_cps (nc_set_interval (nc_set_knots c0 K') (knot K' 0, knot K' (length K' - 1))) cps) as (c & E & ->).
  { destruct dir; eexists; (split; [|reflexivity]); [|reflexivity].
    rewrite update_interval_sorted; [reflexivity|exact SK'|eapply valid_nonempty; exact VK']. }
  eexists. split; [exact E|]. cbn. split; [reflexivity|]. split; [assumption|]. split; [lia|]. split; [reflexivity|]. split; [assumption|].
  split; [assumption|]. intros i f Hi Hf.
  pose proof (Forall2_nth _ _ _ Fc i 0%nat d4 ltac:(rewrite seq_length; assumption)) as Q. rewrite seq_nth in Q by assumption. apply Q. assumption.
Qed.

Lemma unit_cp s n m : good_surf s n m -> unit_surf s -> forall i j, (i < S n)%nat -> (j < S m)%nat -> ww (cp (ns_cps s) i j) = 1.
Proof. intros G W i j Hi Hj. destruct (cp_in s n m i j G Hi Hj). eapply W; eassumption. Qed.
Lemma unit_positive_surf s : unit_surf s -> positive_surf s.
Proof. intros H row q A B. rewrite (H row q A B). reflexivity. Qed.

Lemma isocurve_top : forall s n m t (dir : bool), good_surf s n m -> unit_surf s -> intervals_current s ->
  (if dir then in_domain n (ns_du s) (ns_ku s) t else in_domain m (ns_dv s) (ns_kv s) t) ->
  exists c, ns_isocurve s t dir = Ok c /\ good_curve c (if dir then m else n) /\
    nc_knots c = (if dir then ns_kv s else ns_ku s) /\ nc_degree c = (if dir then ns_dv s else ns_du s) /\
    unit_weights (nc_cps c) /\ interval_current c /\
    forall x, in_curve c (if dir then m else n) x -> exists pt, evaluate c x = Ok pt /\
      ns_evaluate s (if dir then t else x) (if dir then x else t) = Ok pt.
Proof.
  intros s n m t dir G W IC D. pose proof G as (G1 & G2 & G3 & G4 & VU & VV & H8 & H8').
  destruct (isocurve_ok s n m t dir G IC D) as (c & E & EK & ED & EL & EI & _ & _ & F).
  exists c. split; [exact E|].
  assert (good_curve c (if dir then m else n)) as GC.
  { split; [assumption|]. rewrite EK, ED. destruct dir; split; assumption. }
  assert (unit_weights (nc_cps c)) as UW.
  { intros q Hq. destruct (In_nth _ _ d4 Hq) as (i & Hi & <-). rewrite EL in Hi. rewrite F by (assumption || (unfold comp4; auto)).
    destruct dir.
    - rewrite (qsum_ext _ (basis_at (ns_ku s) n (ns_du s) t)); [apply partition_all; assumption|].
      intros k Hk. rewrite (unit_cp s n m G W) by assumption. ring.
    - rewrite (qsum_ext _ (basis_at (ns_kv s) m (ns_dv s) t)); [apply partition_all; assumption|].
      intros k Hk. rewrite (unit_cp s n m G W) by assumption. ring. }
  split; [exact GC|]. split; [exact EK|]. split; [exact ED|]. split; [exact UW|]. split; [exact EI|].
  intros x Hx. destruct GC as (L & V & H).
  assert (in_surf s n m (if dir then t else x) (if dir then x else t)) as DS.
  { unfold in_curve in Hx. rewrite EK, ED in Hx. destruct dir; split; assumption. }
  exists (surf_point s n m (if dir then t else x) (if dir then x else t)). split.
  2:{ apply evaluate_positive_surf; [assumption|assumption|apply unit_positive_surf; assumption]. }
  rewrite (evaluate_positive c (if dir then m else n)); try assumption; [|apply unit_positive; assumption].
  rewrite unit_rational by assumption. unfold poly_point, surf_point.
  assert (tensor ww s n m (if dir then t else x) (if dir then x else t) = 1) as ->.
  { destruct DS as [DS1 DS2]. rewrite tensor_u. rewrite <- (partition_all n (ns_du s) (ns_ku s) (if dir then t else x)) by assumption. apply qsum_ext. intros i Hi.
    rewrite (qsum_ext _ (basis_at (ns_kv s) m (ns_dv s) (if dir then x else t))); [rewrite partition_all by assumption; ring|].
    intros k Hk. rewrite (unit_cp s n m G W) by assumption. ring. }
  rewrite !Qcdiv_1.
  assert (forall f, comp4 f -> qsum (fun i => basis_at (nc_knots c) (if dir then m else n) (nc_degree c) x i * f (nth i (nc_cps c) d4)) (S (if dir then m else n)) =
    tensor f s n m (if dir then t else x) (if dir then x else t)) as K.
  { intros f Hf. rewrite EK, ED. destruct dir; [rewrite tensor_v|rewrite tensor_u]; apply qsum_ext; intros i Hi; f_equal; apply F; assumption. }
  rewrite !K by (unfold comp4; auto). reflexivity.
Qed.

Lemma isocurve_homogeneous : forall s n m t (dir : bool), good_surf s n m -> intervals_current s ->
  (if dir then in_domain n (ns_du s) (ns_ku s) t else in_domain m (ns_dv s) (ns_kv s) t) ->
  exists c, ns_isocurve s t dir = Ok c /\ good_curve c (if dir then m else n) /\
    forall f, f = wx \/ f = wy \/ f = wz \/ f = ww -> forall x,
      qsum (fun i => basis_at (nc_knots c) (if dir then m else n) (nc_degree c) x i * f (nth i (nc_cps c) (V4 0 0 0 0))) (S (if dir then m else n)) =
      tensor f s n m (if dir then t else x) (if dir then x else t).
Proof.
  intros s n m t dir G IC D. pose proof G as (G1 & G2 & G3 & G4 & VU & VV & H8 & H8').
  destruct (isocurve_ok s n m t dir G IC D) as (c & E & EK & ED & EL & EI & _ & _ & F).
  exists c. split; [exact E|]. split.
  { split; [assumption|]. rewrite EK, ED. destruct dir; split; assumption. }
  intros f Hf x. change (V4 0 0 0 0) with d4. rewrite EK, ED. destruct dir; [rewrite tensor_v|rewrite tensor_u]; apply qsum_ext; intros i Hi; f_equal; apply F; assumption.
Qed.

Lemma isocurve_throws : forall s t (dir : bool), let iv := if dir then ns_iu s else ns_iv s in
  t < fst iv \/ snd iv < t -> ns_isocurve s t dir = Throw EInvalidArgument.
Proof.
  intros s t dir iv H. unfold ns_isocurve. fold iv.
  assert ((t <? fst iv) || (snd iv <? t) = true) as ->; [|reflexivity].
  apply orb_true_iff. destruct H; [left|right]; qcb; assumption.
Qed.

Lemma isocurve_box : forall s n m t (dir : bool) c, good_surf s n m -> intervals_current s ->
  (if dir then in_domain n (ns_du s) (ns_ku s) t else in_domain m (ns_dv s) (ns_kv s) t) ->
  ns_isocurve s t dir = Ok c -> nc_aabb c = aabb_default.
Proof.
  intros s n m t dir c G IC D E. destruct (isocurve_ok s n m t dir G IC D) as (c' & E' & _ & _ & _ & _ & _ & H & _).
  rewrite E in E'. injection E' as ->. exact H.
Qed.

Lemma boundaries_top : forall s n m, good_surf s n m -> unit_surf s -> intervals_current s ->
  clamped n (ns_du s) (ns_ku s) -> clamped m (ns_dv s) (ns_kv s) ->
  exists c0 c1 c2 c3, ns_boundaries s = Ok [c0; c1; c2; c3] /\
    good_curve c0 m /\ good_curve c1 m /\ good_curve c2 n /\ good_curve c3 n /\
    (forall v, in_curve c0 m v -> exists pt, evaluate c0 v = Ok pt /\ ns_evaluate s (fst (ns_iu s)) v = Ok pt) /\
    (forall v, in_curve c1 m v -> exists pt, evaluate c1 v = Ok pt /\ ns_evaluate s (snd (ns_iu s)) v = Ok pt) /\
    (forall u, in_curve c2 n u -> exists pt, evaluate c2 u = Ok pt /\ ns_evaluate s u (fst (ns_iv s)) = Ok pt) /\
    (forall u, in_curve c3 n u -> exists pt, evaluate c3 u = Ok pt /\ ns_evaluate s u (snd (ns_iv s)) = Ok pt).
Proof.
  intros s n m G W IC (CU1 & CU2) (CV1 & CV2). pose proof G as (_ & _ & _ & _ & VU & VV & _). pose proof IC as (IU & IV).
  assert (forall N p U, valid_knots N p U -> (forall i, (i <= p)%nat -> knot U i = knot U 0) ->
    (forall i, (N + 1 <= i)%nat -> (i <= N + p + 1)%nat -> knot U i = knot U (N + 1)) ->
    in_domain N p U (knot U 0) /\ in_domain N p U (knot U (length U - 1))) as DD.
  { intros N p U V A B. pose proof V as (P & L & S & _). pose proof (sorted_mono U S) as M.
    unfold in_domain. rewrite (A p) by lia. rewrite (B (length U - 1)%nat) by lia. repeat split; try apply Qcle_refl; apply M; lia. }
  destruct (DD _ _ _ VU CU1 CU2) as [U0 U1]. destruct (DD _ _ _ VV CV1 CV2) as [V0 V1].
  destruct (isocurve_top s n m (fst (ns_iu s)) true G W IC) as (c0 & E0 & G0 & _ & _ & _ & _ & F0); [rewrite IU; exact U0|].
  destruct (isocurve_top s n m (snd (ns_iu s)) true G W IC) as (c1 & E1 & G1 & _ & _ & _ & _ & F1); [rewrite IU; exact U1|].
  destruct (isocurve_top s n m (fst (ns_iv s)) false G W IC) as (c2 & E2 & G2 & _ & _ & _ & _ & F2); [rewrite IV; exact V0|].
  destruct (isocurve_top s n m (snd (ns_iv s)) false G W IC) as (c3 & E3 & G3 & _ & _ & _ & _ & F3); [rewrite IV; exact V1|].
  exists c0, c1, c2, c3. unfold ns_boundaries. rewrite E0, E1, E2, E3. cbn [bind]. auto 10.
Qed.

(** ** the stored box *)
Lemma make_aabb : forall cps du dv ku kv s, ns_make cps du dv ku kv = Ok s -> ns_aabb s = aabb_default.
Proof.
  intros cps du dv ku kv s. unfold ns_make. destruct cps as [|[|x row] l]; try discriminate.
  destruct (match ku with [] => _ | _ => _ end); try discriminate. cbn [bind].
  destruct (match kv with [] => _ | _ => _ end); try discriminate. cbn [bind].
  unfold ns_update_interval. cbn [ns_ku ns_kv]. destruct (range_of a); try discriminate. cbn [bind]. destruct (range_of a0); try discriminate. cbn [bind].
  intros H. injection H as <-. reflexivity.
Qed.

Lemma make_top : forall cps du dv n m, length cps = S n -> (forall row, In row cps -> length row = S m) ->
  (du <= n)%nat -> (dv <= m)%nat -> (du <= 8)%nat -> (dv <= 8)%nat ->
  exists s, ns_make cps du dv [] [] = Ok s /\ good_surf s n m /\ intervals_current s /\ ns_cps s = cps /\
    ns_du s = du /\ ns_dv s = dv /\ clamped n du (ns_ku s) /\ clamped m dv (ns_kv s) /\
    ns_iu s = (0, Qc_of_nat (S n - du)) /\ ns_iv s = (0, Qc_of_nat (S m - dv)).
Proof.
  intros cps du dv n m L1 L2 P Q P8 Q8.
  destruct (gen_knots_spec n du P) as (U & EU & VU & CU & _ & U0 & U1 & _).
  destruct (gen_knots_spec m dv Q) as (V & EV & VV & CV & _ & V0 & V1 & _).
  pose proof (make_ok cps du dv U V n m L1 L2 (valid_nonempty _ _ _ VU) (valid_nonempty _ _ _ VV)) as K.
  unfold ns_make in *. destruct cps as [|row l]; [discriminate|]. assert (length row = S m) as Lr by (apply L2; left; reflexivity).
  destruct row as [|x row]; [discriminate|]. rewrite L1, Lr in *. rewrite EU, EV. cbn [bind].
  assert (U <> []) as NU by (eapply valid_nonempty; eassumption). assert (V <> []) as NV by (eapply valid_nonempty; eassumption).
  assert ((match U with [] => Ok U | _ => Ok U end) = Ok U) as XU by (destruct U; reflexivity).
  destruct U as [|u0 U]; [contradiction|]. destruct V as [|v0 V]; [contradiction|]. cbn [bind] in K. rewrite K.
  eexists. split; [reflexivity|]. split; [|split; [split; reflexivity|]].
  { split; [exact L1|]. split; [exact L2|]. auto 10. }
  cbn [ns_cps ns_du ns_dv ns_ku ns_kv ns_iu ns_iv]. do 3 (split; [reflexivity|]). split; [exact CU|]. split; [exact CV|].
  destruct CU as (CU1 & CU2). destruct CV as (CV1 & CV2). pose proof VU as (_ & LU & _). pose proof VV as (_ & LV & _).
  split; f_equal.
  - rewrite <- U0. symmetry. apply CU1. lia.
  - rewrite <- U1. apply CU2; lia.
  - rewrite <- V0. symmetry. apply CV1. lia.
  - rewrite <- V1. apply CV2; lia.
Qed.

Lemma make_throws : forall cps du dv ku kv, cps = [] \/ (exists l, cps = [] :: l) -> ns_make cps du dv ku kv = Throw EInvalidArgument.
Proof. intros cps du dv ku kv [->|(l & ->)]; reflexivity. Qed.

(** ** get_derivative *)
Lemma for_up_post {S} (P : S -> Prop) (body : nat -> S -> res S) : forall count start s s',
  P s -> (forall i s s', P s -> body i s = Ok s' -> P s') -> for_up count start body s = Ok s' -> P s'.
Proof.
  induction count; intros start s s' H0 Hb; cbn [for_up]; intros E; [injection E as <-; assumption|].
  destruct (body start s) eqn:B; try discriminate. cbn [bind] in E. eapply IHcount; [|exact Hb|exact E]. eapply Hb; eassumption.
Qed.
Lemma getZ_In {A} (l : list A) i x : getZ l i = Ok x -> In x l.
Proof.
  unfold getZ, get. destruct (_ <? _)%Z; [discriminate|]. destruct (nth_error l _) eqn:E; cbn; [|discriminate]. intros H. injection H as <-.
  eapply nth_error_In; eassumption.
Qed.
Lemma get2_In {A} (P : list (list A)) i j x : get2 P i j = Ok x -> exists row, In row P /\ In x row.
Proof.
  unfold get2. destruct (getZ P i) eqn:E; try discriminate. cbn [bind]. intros H. exists a. split; eapply getZ_In; eassumption.
Qed.

Lemma set_nth_In {A} : forall (l : list A) i x l' y, set_nth l i x = Ok l' -> In y l' -> y = x \/ In y l.
Proof.
  induction l as [|h l IH]; intros i x l' y; cbn [set_nth]; [discriminate|]. destruct i.
  - intros E. injection E as <-. intros [<-|H]; [left; reflexivity|right; right; assumption].
  - destruct (set_nth l i x) eqn:E; try discriminate. cbn [bind]. intros H. injection H as <-.
    intros [<-|Hy]; [right; left; reflexivity|]. destruct (IH _ _ _ _ E Hy); [left|right; right]; assumption.
Qed.

Lemma weightless s : (forall row q, In row (ns_cps s) -> In q row -> ww q = 0) -> forall u v pt, ns_evaluate s u v <> Ok pt.
Proof.
  intros W u v pt. unfold ns_evaluate, surface_point.
  destruct (surf_span _ _ u _); try discriminate. cbn [bind]. destruct (surf_span _ _ v _); try discriminate. cbn [bind].
  destruct (basis_funs _ u _ _ _); try discriminate. cbn [bind]. destruct (basis_funs _ v _ _ _); try discriminate. cbn [bind].
  destruct (get2 _ 0 0); try discriminate. cbn [bind].
  destruct (for_up (ns_dv s + 1) 0 _ (repeat _ _)) as [temp| |] eqn:ET; try discriminate. cbn [bind].
  assert (forall q, In q temp -> ww q = 0) as HT.
  { revert ET. apply (for_up_post (fun l => forall q, In q l -> ww q = 0)).
    - intros q Hq. apply repeat_spec in Hq. subst q. reflexivity.
    - intros i l l' Hl. apply (for_up_post (fun l => forall q, In q l -> ww q = 0)); [assumption|]. clear l l' Hl.
      intros k l l' Hl. unfold surf_inner. destruct (get _ k); try discriminate. cbn [bind].
      destruct (get l i) eqn:EG; try discriminate. cbn [bind]. destruct (get2 _ _ _) eqn:E2; try discriminate. cbn [bind].
      intros E q Hq. apply get2_In in E2. destruct E2 as (row & R1 & R2). 
      destruct (set_nth_In _ _ _ _ _ E Hq) as [-> |Hq']; [|apply Hl; assumption].
        cbn [ww v4axpy]. unfold get in EG. destruct (nth_error l i) eqn:NE; [|discriminate]. injection EG as ->. apply nth_error_In in NE.
        rewrite (Hl _ NE), (W _ _ R1 R2). ring. }
  destruct (for_up (ns_dv s + 1) 0 _ v4zero) as [Sw| |] eqn:ES; try discriminate. cbn [bind].
  assert (ww Sw = 0) as Z.
  { revert ES. apply (for_up_post (fun x => ww x = 0)); [reflexivity|]. intros i x x' Hx.
    destruct (get _ i); try discriminate. cbn [bind]. destruct (get temp i) eqn:EG; try discriminate. cbn [bind]. intros E. injection E as <-.
    cbn [ww v4axpy]. unfold get in EG. destruct (nth_error temp i) eqn:NE; [|discriminate]. injection EG as ->. apply nth_error_In in NE.
    rewrite Hx, (HT _ NE). ring. }
  rewrite Z. unfold qdiv. replace (0 =? 0) with true by reflexivity. discriminate.
Qed.

Lemma mapM_In {A B} (f : A -> res B) : forall l l' y, mapM f l = Ok l' -> In y l' -> exists x, In x l /\ f x = Ok y.
Proof.
  induction l as [|x l IH]; intros l' y; cbn [mapM]; [intros E; injection E as <-; intros []|].
  destruct (f x) eqn:E; try discriminate. cbn [bind]. destruct (mapM f l) eqn:E2; try discriminate. cbn [bind].
  intros H. injection H as <-. intros [<-|Hy]; [exists x; split; [left; reflexivity|assumption]|].
  destruct (IH _ _ eq_refl Hy) as (z & Z1 & Z2). exists z. split; [right; assumption|assumption].
Qed.

Lemma derivative_never : forall s dir d, unit_surf s -> ns_get_derivative s dir = Ok d ->
  forall u v pt, ns_evaluate d u v <> Ok pt.
Proof.
  intros s dir d W E. apply weightless.
  assert (forall a b dd k i x, (forall q, a = Ok q -> ww q = 1) -> (forall q, b = Ok q -> ww q = 1) ->
    (x <- get k (i + dd + 1)%nat ;; y <- get k (i + 1)%nat ;; f <- qdiv (Qc_of_nat dd) (x - y) ;;
    p1 <- a ;; p0 <- b ;;
    Ok (v4scale (V4 (wx p1 - wx p0) (wy p1 - wy p0) (wz p1 - wz p0) (ww p1 - ww p0)) f)) = Ok x -> ww x = 0) as DF.
  { intros a b dd k i x A B. destruct (get k (i + dd + 1)%nat); try discriminate. cbn [bind]. destruct (get k (i + 1)%nat); try discriminate. cbn [bind].
    destruct (qdiv _ _); try discriminate. cbn [bind]. destruct a as [p1| |]; try discriminate. cbn [bind]. destruct b as [p0| |]; try discriminate. cbn [bind].
    intros H. injection H as <-. cbn [v4scale ww]. rewrite (A p1 eq_refl), (B p0 eq_refl). ring. }
  assert (forall i j q, get2 (ns_cps s) i j = Ok q -> ww q = 1) as GW.
  { intros i j q H. apply get2_In in H. destruct H as (row & H1 & H2). eapply W; eassumption. }
  unfold ns_get_derivative in E. destruct (negb _); try discriminate. destruct (sub_vec _ _ _); try discriminate. cbn [bind] in E.
  destruct (dir =? 0)%Z.
  - destruct (mapM _ (seq 0 (ns_su s - 1))) as [cps| |] eqn:M; try discriminate. cbn [bind] in E. injection E as <-. cbn [ns_cps].
    intros row q Hr Hq. destruct (mapM_In _ _ _ _ M Hr) as (i & _ & Mi). destruct (mapM_In _ _ _ _ Mi Hq) as (j & _ & Mj).
    eapply DF; [| |exact Mj]; apply GW.
  - destruct (mapM _ (seq 0 (ns_su s))) as [cps| |] eqn:M; try discriminate. cbn [bind] in E. injection E as <-. cbn [ns_cps].
    intros row q Hr Hq. destruct (mapM_In _ _ _ _ M Hr) as (i & _ & Mi). destruct (mapM_In _ _ _ _ Mi Hq) as (j & _ & Mj).
    eapply DF; [| |exact Mj]; apply GW.
Qed.

(** ** the free extract_isocurve in the U direction *)
Lemma free_isocurve_u : forall s n m t, good_surf s n m -> intervals_current s -> in_domain n (ns_du s) (ns_ku s) t ->
  free_isocurve s t true = ns_isocurve s t true.
Proof.
  intros s n m t G (IU & IV) D. pose proof G as (G1 & G2 & G3 & G4 & VU & VV & H8 & H8'). unfold free_isocurve, ns_isocurve. rewrite G4.
  destruct (_ || _)%bool; [reflexivity|]. destruct (surf_span _ _ _ _); cbn [bind]; try reflexivity.
  destruct (basis_funs _ _ _ _ _); cbn [bind]; try reflexivity.
  pose proof VV as (PV & LV & _). destruct (make_size_ok (S m) (ns_dv s) ltac:(lia)) as (c0 & E4 & _ & C2 & _). rewrite E4. cbn [bind].
  unfold copy_range.
  assert ((0 <=? 0) && (0 <=? Z.of_nat (length (ns_kv s))) && (0 <=? 0) && (0 + Z.of_nat (length (ns_kv s)) <=? Z.of_nat (length (ns_kv s))) &&
     (0 + Z.of_nat (length (ns_kv s)) <=? Z.of_nat (length (nc_knots c0))) = true)%Z as ->.
  { repeat (apply andb_true_intro; split); apply Z.leb_le; lia. }
  cbn [bind]. change (Z.to_nat 0) with 0%nat. cbn [firstn skipn app]. rewrite Z.add_0_l, Nat2Z.id, firstn_all.
  rewrite (skipn_all2 (nc_knots c0)) by lia. rewrite app_nil_r. reflexivity.
Qed.
