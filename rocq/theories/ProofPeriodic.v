(** Construction of open and periodic curves; periodic curves close. *)
From Coq Require Import List ZArith QArith Qcanon Bool Lia Lqa Field.
From Verif Require Import Base BaseFacts LoopFacts ModelVec ModelAabb ModelNurbs ModelNumeric ModelDerivative ModelJoin
  SpecNurbs SpecCurve SpecDerivative SpecJoin ProofBspline ProofNurbs ProofInsertCurve ProofInsertKnot ProofMinimize ProofSmooth ProofDerBasis ProofCurve ProofDerivative ProofDerivativeTop.
Import ListNotations.
Open Scope Qc_scope.

(** ** uniform knots *)
Definition uni (p i : nat) : Qc := Qc_of_Z (Z.of_nat i - Z.of_nat p).

Lemma uni_le p i j : (i <= j)%nat -> uni p i <= uni p j.
Proof. intros H. unfold uni. rewrite Qc_le_this, !this_of_Z. rewrite <- Zle_Qle. lia. Qed.
Lemma uni_lt p i j : (i < j)%nat -> uni p i < uni p j.
Proof. intros H. unfold uni. rewrite Qc_lt_this, !this_of_Z. rewrite <- Zlt_Qlt. lia. Qed.
Lemma uni_mono p : mono (uni p). Proof. intros i j. apply uni_le. Qed.
Lemma Qc_of_Z_add a b : Qc_of_Z (a + b) = Qc_of_Z a + Qc_of_Z b.
Proof. apply Qc_is_canon. rewrite this_plus, !this_of_Z. unfold Qeq, Qplus, inject_Z. cbn. lia. Qed.
Lemma uni_add p i m : uni p (m + i) = uni p i + Qc_of_Z (Z.of_nat m).
Proof. unfold uni. rewrite <- Qc_of_Z_add. f_equal. lia. Qed.

Lemma periodic_length m p : length (gen_knots_periodic m p) = (m + p + 1)%nat.
Proof. unfold gen_knots_periodic. rewrite map_length, seq_length. reflexivity. Qed.
Lemma periodic_knot m p i : (i < m + p + 1)%nat -> knot (gen_knots_periodic m p) i = uni p i.
Proof.
  intros H. rewrite knot_nth by (rewrite periodic_length; assumption). unfold gen_knots_periodic.
  rewrite (nth_indep _ 0 (Qc_of_Z (Z.of_nat 0 - Z.of_nat p))) by (rewrite map_length, seq_length; assumption).
  rewrite (map_nth (fun i => Qc_of_Z (Z.of_nat i - Z.of_nat p))), seq_nth by assumption. reflexivity.
Qed.
Lemma periodic_sorted m p : sorted (gen_knots_periodic m p).
Proof.
  intros i j H L. rewrite <- !knot_nth by lia. rewrite periodic_length in L. rewrite !periodic_knot by lia. apply uni_le. assumption.
Qed.
Lemma periodic_valid n p : (p <= n)%nat -> valid_knots n p (gen_knots_periodic (S n) p).
Proof.
  intros H. split; [assumption|]. split; [rewrite periodic_length; lia|]. split; [apply periodic_sorted|]. rewrite !periodic_knot by lia. apply uni_lt. lia.
Qed.

(** ** basis functions on shifted knots *)
Lemma bsp_translate U V T s p : (forall j, V j = U j + T) -> forall i u, bsp V s p i (u + T) = bsp U s p i u.
Proof.
  intros H. induction p; intros i u; [reflexivity|]. cbn [bsp]. rewrite !IHp, !H. f_equal; f_equal; f_equal; ring.
Qed.
Lemma bspd_translate U V T s k : (forall j, V j = U j + T) -> forall p i u, bspd V s k p i (u + T) = bspd U s k p i u.
Proof.
  intros H. induction k; intros p i u; [apply bsp_translate; assumption|]. destruct p as [|q]; [reflexivity|].
  rewrite !bspd_S, !IHk, !H. f_equal. f_equal; f_equal; ring.
Qed.
Lemma bsp_ext_range U V s p : forall i u, (forall j, (i <= j <= i + p + 1)%nat -> U j = V j) -> bsp U s p i u = bsp V s p i u.
Proof.
  induction p; intros i u H; [reflexivity|]. cbn [bsp].
  rewrite !IHp by (intros; apply H; lia). rewrite !H by lia. reflexivity.
Qed.
Lemma bspd_ext_range U V s k : forall p i u, (forall j, (i <= j <= i + p + 1)%nat -> U j = V j) -> bspd U s k p i u = bspd V s k p i u.
Proof.
  induction k; intros p i u H; [apply bsp_ext_range; assumption|]. destruct p as [|q]; [reflexivity|].
  rewrite !bspd_S. rewrite !IHk by (intros; apply H; lia). rewrite !H by lia. reflexivity.
Qed.

Lemma uni_span p s : span_ok (uni p) s (uni p s) /\ span_ok (uni p) s (uni p (S s)).
Proof. repeat split; try apply uni_le; try (apply uni_lt); lia. Qed.
Lemma uni_join p k q s i : (S k <= q)%nat -> bspd (uni p) s k q i (uni p (S s)) = bspd (uni p) (S s) k q i (uni p (S s)).
Proof.
  intros H. apply bspd_join; [apply uni_mono|apply uni_span|apply uni_span|lia|intros j Hj; f_equal; lia|lia].
Qed.

Lemma closing_sum p n k (f : nat -> Qc) : (1 <= p)%nat -> (p <= n)%nat -> (k < p)%nat ->
  (forall j, (j < p)%nat -> f j = f (S n - p + j)%nat) ->
  qsum (fun i => bspd (uni p) p k p i (uni p p) * f i) (S n) = qsum (fun i => bspd (uni p) n k p i (uni p (S n)) * f i) (S n).
Proof.
  intros H1 Hn Hk Hf. rewrite (bspd_sum_support (uni p) p k p (uni p p) f (S n)) by lia.
  transitivity (qsum (fun r => bspd (uni p) p k p r (uni p p) * f r) p).
  { cbn [qsum]. rewrite Nat.sub_diag. cbn [Nat.add].
    assert (bspd (uni p) p k p p (uni p p) = 0) as ->.
    { destruct p as [|q]; [lia|]. rewrite <- uni_join by lia. apply bspd_right. lia. }
    ring. }
  rewrite (qsum_ext (fun i => bspd (uni p) n k p i (uni p (S n)) * f i) (fun i => bspd (uni p) (S n) k p i (uni p (S n)) * f i)) by (intros i _; rewrite uni_join by lia; reflexivity).
  transitivity (qsum (fun i => bspd (uni p) (S n) k p i (uni p (S n)) * f i) ((S n - p) + p)); [|f_equal; lia]. rewrite qsum_split.
  rewrite (qsum_zero _ (S n - p)). 2:{ intros i Hi. rewrite bspd_left by lia. ring. }
  rewrite (qsum_ext _ (fun i => bspd (uni p) (S n) k p (S n - p + i) (uni p (S n)) * f (S n - p + i)%nat) p).
  - ring.
  - intros r Hr. rewrite <- Hf by assumption. f_equal.
    set (m := (S n - p)%nat). replace (bspd (uni p) (S n) k p (m + r) (uni p (S n))) with (bspd (uni p) (m + p) k p (m + r) (uni p (m + p))) by (unfold m; repeat f_equal; lia).
    rewrite bspd_shift. rewrite (uni_add p p m). symmetry. apply bspd_translate. intros j. apply uni_add.
Qed.

(** ** construction *)
Lemma positive_vec3 P : positive_weights P -> exists l, mapM to_vec3 P = Ok l.
Proof.
  induction P as [|a P IH]; intros W; [exists []; reflexivity|]. cbn [mapM].
  assert (0 < ww a) as Wa by (apply W; left; reflexivity). assert (ww a <> 0) as Na by (intros E; rewrite E in Wa; discriminate Wa).
  destruct IH as (l & E); [intros q Hq; apply W; right; assumption|].
  exists (V3 (wx a / ww a) (wy a / ww a) (wz a / ww a) :: l). unfold to_vec3 at 1. rewrite !qdiv_ok by assumption. cbn [bind]. rewrite E. reflexivity.
Qed.

Lemma divided_ok q : 0 < ww q -> to_vec3 q = Ok (divided q).
Proof.
  intros Wa. assert (ww q <> 0) as Na by (intros E; rewrite E in Wa; discriminate Wa). unfold to_vec3. rewrite !qdiv_ok by assumption. reflexivity.
Qed.

Lemma rebuild_positive c : positive_weights (nc_cps c) -> nc_cps c <> [] -> exists b, rebuildAABB c = Ok (nc_set_aabb c b).
Proof.
  intros W NE. destruct (positive_vec3 _ W) as (l & E). unfold rebuildAABB. destruct (nc_cps c) as [|a P]; [contradiction|].
  rewrite (divided_ok a) by (apply W; left; reflexivity). cbn [bind]. rewrite E. eexists. reflexivity.
Qed.

Lemma make_open cps p n : length cps = S n -> (p <= n)%nat -> positive_weights cps ->
  exists c U, nc_make cps p false = Ok c /\ nc_cps c = cps /\ nc_degree c = p /\ nc_periodic c = false /\
    gen_knots (S n) p = Ok U /\ nc_knots c = U /\ interval_current c.
Proof.
  intros L Hp W. destruct (gen_knots_spec n p Hp) as (U & E & V & _). pose proof V as (_ & HL & HS & _).
  unfold nc_make, generate_knots. cbn [nc_cps nc_degree]. rewrite L, E. cbn [bind].
  rewrite update_interval_sorted; cbn [nc_set_knots nc_knots]; [|assumption|intros F; rewrite F in HL; cbn in HL; lia]. cbn [bind].
  match goal with |- context [rebuildAABB ?c] => destruct (rebuild_positive c) as (b & Eb) end.
  { exact W. } { cbn. intros F. rewrite F in L. discriminate. }
  rewrite Eb. eexists _, U. split; [reflexivity|]. cbn. repeat split; auto.
Qed.

Lemma v4eqb_spec a b : v4eqb a b = true <-> a = b.
Proof.
  unfold v4eqb. rewrite !andb_true_iff. destruct a as [a1 a2 a3 a4], b as [b1 b2 b3 b4]. cbn [wx wy wz ww].
  split.
  - intros (((A & B) & C) & D). f_equal; apply Qceqb_iff; assumption.
  - intros E. injection E as -> -> -> ->. repeat split; apply Qceqb_iff; reflexivity.
Qed.

Lemma wrap_spec P p : (p <= length P)%nat -> forall fuel j, (j + fuel = p)%nat ->
  exists b, wrap_from P p j fuel = Ok b /\
    (b = true <-> forall i, (j <= i)%nat -> (i < p)%nat -> nth i P d4 = nth (length P - p + i) P d4).
Proof.
  intros L. induction fuel as [|f IH]; intros j Hj; cbn [wrap_from].
  - exists true. split; [reflexivity|]. split; [intros _ i H1 H2; lia|reflexivity].
  - rewrite (get_ok _ _ d4) by lia. cbn [bind]. unfold getZ.
    replace (Z.of_nat (length P) - Z.of_nat p + Z.of_nat j)%Z with (Z.of_nat (length P - p + j)) by lia.
    destruct (Z.ltb_spec (Z.of_nat (length P - p + j)) 0); [lia|]. rewrite Nat2Z.id. rewrite (get_ok _ _ d4) by lia. cbn [bind].
    destruct (v4eqb _ _) eqn:E.
    + apply v4eqb_spec in E. destruct (IH (S j) ltac:(lia)) as (b & Eb & Hb). exists b. split; [exact Eb|]. rewrite Hb. split.
      * intros H0 i H1 H2. destruct (Nat.eq_dec i j) as [->|NE]; [exact E|]. apply H0; lia.
      * intros H0 i H1 H2. apply H0; lia.
    + exists false. split; [reflexivity|]. split; [discriminate|]. intros H0. exfalso.
      specialize (H0 j ltac:(lia) ltac:(lia)). apply v4eqb_spec in H0. rewrite H0 in E. discriminate.
Qed.

Lemma is_periodic_wraps c : (nc_degree c <= length (nc_cps c))%nat -> exists b, nc_is_periodic c = Ok b /\ (b = true <-> wraps c).
Proof.
  intros H. unfold nc_is_periodic. destruct (wrap_spec (nc_cps c) (nc_degree c) H (nc_degree c) 0 ltac:(lia)) as (b & E & Hb). exists b. split; [exact E|].
  rewrite Hb. unfold wraps. fold d4. split; intros H0 i Hi; [apply H0; lia|intros; apply H0; lia].
Qed.

Lemma nth_firstn {A} (l : list A) d : forall k i, (i < k)%nat -> nth i (firstn k l) d = nth i l d.
Proof.
  induction l as [|a l IH]; intros k i H; [rewrite firstn_nil; reflexivity|]. destruct k as [|k]; [lia|]. destruct i as [|i]; [reflexivity|]. cbn [firstn nth]. apply IH. lia.
Qed.

Lemma make_closed cps p : (p < length cps)%nat -> positive_weights cps ->
  exists c, nc_make cps p true = Ok c /\ nc_degree c = p /\ nc_periodic c = true /\
    nc_knots c = gen_knots_periodic (length (nc_cps c)) p /\ interval_current c /\ wraps c /\
    ((nc_cps c = cps /\ forall j, (j < p)%nat -> nth j cps d4 = nth (length cps - p + j) cps d4) \/ nc_cps c = cps ++ firstn p cps).
Proof.
  intros L W. unfold nc_make. cbn [nc_cps nc_degree].
  assert (forall P per, (0 < length P)%nat -> generate_knots_periodic (NC P p [] per [] (0, 1) aabb_default) =
    Ok (NC P p (gen_knots_periodic (length P) p) per [] (knot (gen_knots_periodic (length P) p) 0, knot (gen_knots_periodic (length P) p) (length (gen_knots_periodic (length P) p) - 1)) aabb_default)) as K.
  { intros P per HP. unfold generate_knots_periodic. cbn [nc_cps nc_degree nc_set_knots].
    rewrite update_interval_sorted; cbn [nc_set_knots nc_knots]; [reflexivity|apply periodic_sorted|].
    intros F. assert (length (gen_knots_periodic (length P) p) = 0%nat) as F0 by (rewrite F; reflexivity). rewrite periodic_length in F0. lia. }
  rewrite K by lia. cbn [bind]. unfold make_periodic.
  match goal with |- context [nc_is_periodic ?c] => destruct (is_periodic_wraps c) as (b & Eb & Hb); [cbn; lia|] end.
  rewrite Eb. cbn [bind]. cbn [nc_cps nc_degree]. destruct b.
  - cbn [bind]. match goal with |- context [rebuildAABB ?c] => destruct (rebuild_positive c) as (bx & Ex) end.
    { exact W. } { cbn. intros F. rewrite F in L. cbn in L. lia. }
    rewrite Ex. eexists. split; [reflexivity|]. cbn. destruct Hb as [Hb _]. specialize (Hb eq_refl). repeat split; auto.
  - destruct (Nat.ltb_spec (length cps) p); [lia|].
    unfold nc_set_cps, generate_knots_periodic. cbn [nc_cps nc_degree nc_knots nc_periodic nc_hull nc_interval nc_aabb nc_set_knots].
    rewrite update_interval_sorted; cbn [nc_set_knots nc_knots]; [|apply periodic_sorted|].
    2:{ intros F. assert (length (gen_knots_periodic (length (cps ++ firstn p cps)) p) = 0%nat) as F0 by (rewrite F; reflexivity). rewrite periodic_length in F0. lia. }
    cbn [bind nc_set_interval nc_set_periodic nc_cps nc_degree nc_knots nc_periodic nc_hull nc_interval nc_aabb nc_set_knots].
    match goal with |- context [rebuildAABB ?c] => destruct (rebuild_positive c) as (bx & Ex) end.
    { cbn. intros q Hq. apply in_app_iff in Hq. destruct Hq as [Hq|Hq]; [apply W; assumption|]. apply W. rewrite <- (firstn_skipn p cps). apply in_app_iff. left. assumption. }
    { cbn. intros F. apply app_eq_nil in F. destruct F as [F _]. rewrite F in L. cbn in L. lia. }
    rewrite Ex. eexists. split; [reflexivity|]. split; [reflexivity|]. split; [reflexivity|]. split; [reflexivity|]. split; [reflexivity|]. split; [|right; reflexivity].
    unfold wraps, nc_set_aabb, nc_set_periodic, nc_set_interval, nc_set_knots. cbn [nc_degree nc_cps]. intros j Hj. rewrite app_length, firstn_length_le by lia. fold d4.
    rewrite (app_nth1 cps) by lia. rewrite (app_nth2 cps) by lia. rewrite nth_firstn by lia. f_equal. lia.
Qed.

(** ** a periodic curve closes *)
Lemma closing_top c n : nc_knots c = gen_knots_periodic (S n) (nc_degree c) -> length (nc_cps c) = S n -> (1 <= nc_degree c)%nat -> (nc_degree c <= n)%nat -> (nc_degree c <= 8)%nat ->
  positive_weights (nc_cps c) -> wraps c ->
  (exists pt, evaluate c (knot (nc_knots c) (nc_degree c)) = Ok pt /\ evaluate c (knot (nc_knots c) (n + 1)) = Ok pt) /\
  ((2 <= nc_degree c <= 3)%nat ->
   exists d, nc_derivative c (knot (nc_knots c) (nc_degree c)) = Ok d /\ nc_derivative c (knot (nc_knots c) (n + 1)) = Ok d).
Proof.
  intros EU HP H1 Hn H8 W WR. set (p := nc_degree c) in *. set (U := nc_knots c) in *.
  assert (valid_knots n p U) as V by (rewrite EU; apply periodic_valid; assumption).
  pose proof (sorted_mono U (proj1 (proj2 (proj2 V)))) as M.
  assert (knot U p = uni p p) as E0 by (rewrite EU; apply periodic_knot; lia).
  assert (knot U (n + 1) = uni p (S n)) as E1 by (rewrite EU; rewrite periodic_knot by lia; f_equal; lia).
  assert (in_domain n p U (knot U p)) as D0 by (split; [apply Qcle_refl|apply M; lia]).
  assert (in_domain n p U (knot U (n + 1))) as D1 by (split; [apply M; lia|apply Qcle_refl]).
  assert (is_span (knot U) n p (knot U p)) as I0.
  { split; [assumption|]. split; [apply Qcle_refl|]. left. rewrite EU, !periodic_knot by lia. apply uni_lt. lia. }
  assert (is_span (knot U) n n (knot U (n + 1))) as I1.
  { split; [lia|]. split; [apply M; lia|]. right. split; [reflexivity|]. f_equal. lia. }
  assert (forall k f, (k < p)%nat -> (forall j, (j < p)%nat -> f j = f (S n - p + j)%nat) ->
    qsum (fun i => bspd (knot U) p k p i (knot U p) * f i) (S n) = qsum (fun i => bspd (knot U) n k p i (knot U (n + 1)) * f i) (S n)) as CS.
  { intros k f Hk Hf. rewrite E0, E1.
    rewrite (qsum_ext _ (fun i => bspd (uni p) p k p i (uni p p) * f i)).
    2:{ intros i Hi. f_equal. apply bspd_ext_range. intros j Hj. rewrite EU. apply periodic_knot. lia. }
    rewrite (closing_sum p n k f H1 Hn Hk Hf). apply qsum_ext. intros i Hi. f_equal. apply bspd_ext_range. intros j Hj. rewrite EU. symmetry. apply periodic_knot. lia. }
  assert (forall (g : vec4 -> Qc) j, (j < p)%nat -> g (nth j (nc_cps c) d4) = g (nth (S n - p + j) (nc_cps c) d4)) as GW.
  { intros g j Hj. f_equal. specialize (WR j Hj). fold d4 p in WR. rewrite HP in WR. exact WR. }
  assert (forall g : vec4 -> Qc, qsum (fun i => basis_at U n p (knot U p) i * g (nth i (nc_cps c) d4)) (S n) =
     qsum (fun i => basis_at U n p (knot U (n + 1)) i * g (nth i (nc_cps c) d4)) (S n)) as CB.
  { intros g. rewrite (qsum_ext _ (fun i => bspd (knot U) p 0 p i (knot U p) * g (nth i (nc_cps c) d4))).
    2:{ intros i _. rewrite (basis_at_bsp n p U _ p i V D0 I0). reflexivity. }
    rewrite (CS 0%nat (fun i => g (nth i (nc_cps c) d4)) ltac:(lia)) by (intros; apply GW; assumption).
    apply qsum_ext. intros i _. rewrite (basis_at_bsp n p U _ n i V D1 I1). reflexivity. }
  split.
  - exists (rational_point U n p (nc_cps c) (knot U p)). split; [apply evaluate_positive; assumption|].
    rewrite (evaluate_positive c n _ HP V H8 D1 W). fold U p. f_equal. unfold rational_point, weight_at, weighted_at. fold d4.
    rewrite <- (CB ww).
    assert (forall g : vec4 -> Qc, qsum (fun i => basis_at U n p (knot U (n + 1)) i * ww (nth i (nc_cps c) d4) * g (nth i (nc_cps c) d4)) (S n) =
       qsum (fun i => basis_at U n p (knot U p) i * ww (nth i (nc_cps c) d4) * g (nth i (nc_cps c) d4)) (S n)) as CG.
    { intros g. transitivity (qsum (fun i => basis_at U n p (knot U (n + 1)) i * (ww (nth i (nc_cps c) d4) * g (nth i (nc_cps c) d4))) (S n)); [apply qsum_ext; intros; ring|].
      rewrite <- (CB (fun q => ww q * g q)). apply qsum_ext. intros; ring. }
    rewrite !CG. reflexivity.
  - intros H23. assert (good_curve c n) as G by (split; [assumption|split; assumption]).
    exists (point_k c n 1 (knot U p)). split; [apply derivative_point; [assumption|fold p; lia|exact D0]|].
    rewrite (derivative_point c n _ G ltac:(fold p; lia) D1). f_equal. unfold point_k. fold U p.
    rewrite !(phi_span U n p 1 _ _ n V D1 I1), !(phi_span U n p 1 _ _ p V D0 I0). unfold dsum.
    f_equal; symmetry; apply CS; [lia|intros; unfold coord; apply (GW wx); assumption|lia|intros; unfold coord; apply (GW wy); assumption|lia|intros; unfold coord; apply (GW wz); assumption].
Qed.

Lemma periodic_top cps p : (1 <= p)%nat -> (p < length cps)%nat -> (p <= 8)%nat -> positive_weights cps ->
  exists c n, nc_make cps p true = Ok c /\ good_curve c n /\ nc_degree c = p /\ nc_periodic c = true /\
    (nc_cps c = cps \/ nc_cps c = cps ++ firstn p cps) /\ wraps c /\
    (exists pt, evaluate c (knot (nc_knots c) p) = Ok pt /\ evaluate c (knot (nc_knots c) (n + 1)) = Ok pt) /\
    ((2 <= p <= 3)%nat ->
     exists d, nc_derivative c (knot (nc_knots c) p) = Ok d /\ nc_derivative c (knot (nc_knots c) (n + 1)) = Ok d).
Proof.
  intros H1 HL H8 W. destruct (make_closed cps p HL W) as (c & E & Ed & Ep & Ek & Ei & WR & EC).
  assert (exists n, length (nc_cps c) = S n /\ (p <= n)%nat) as (n & Ln & Hpn).
  { exists (length (nc_cps c) - 1)%nat. destruct EC as [[-> _]| ->]; rewrite ?app_length; lia. }
  assert (positive_weights (nc_cps c)) as W'.
  { destruct EC as [[-> _]| ->]; [assumption|]. intros q Hq. apply in_app_iff in Hq. destruct Hq as [Hq|Hq]; [apply W; assumption|]. apply W. rewrite <- (firstn_skipn p cps). apply in_app_iff. left. assumption. }
  rewrite Ln in Ek. subst p. destruct (closing_top c n Ek Ln H1 Hpn H8 W' WR) as [A B].
  exists c, n. split; [exact E|]. split; [split; [assumption|split; [rewrite Ek; apply periodic_valid; assumption|assumption]]|].
  split; [reflexivity|]. split; [assumption|]. split; [destruct EC as [[EC _]|EC]; auto|]. split; [assumption|]. split; assumption.
Qed.
