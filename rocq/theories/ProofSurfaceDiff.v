(** Surfaces do not jump; their differences, normals and cross products. *)
From Coq Require Import List ZArith QArith Qcanon Lia Bool.
From Verif Require Import Base BaseFacts LoopFacts ModelVec ModelAabb ModelNurbs ModelSurface ModelDerivative ModelPolygon ModelCsx ModelSurface2
  SpecAabb SpecNurbs SpecCurve SpecSurface SpecDerivative SpecSurface2
  ProofBspline ProofNurbs ProofInsertCurve ProofCurve ProofMinimize ProofDecompose ProofSmooth ProofDerivative ProofContinuity
  ProofSurfaceSums ProofSurface ProofSurfaceOps ProofSurfaceTop.
Import ListNotations.
Open Scope Qc_scope.

(** ** continuity *)
Lemma quotient_near (N W N' W' w KN KW h : Qc) : 0 < w -> 0 <= KN -> 0 <= KW -> 0 <= h -> w <= W -> w <= W' ->
  Qcabs N <= KN -> Qcabs W <= KW -> Qcabs (N - N') <= KN * h -> Qcabs (W - W') <= KW * h ->
  Qcabs (N / W - N' / W') <= (KN * KW + KN * KW) / (w * w) * h.
Proof.
  intros w0 PN PW H0 L1 L2 BN BW LN LW.
  assert (W <> 0) as N1 by (intros E; rewrite E in L1; exact (Qcle_not_lt _ _ L1 w0)). assert (W' <> 0) as N2 by (intros E; rewrite E in L2; exact (Qcle_not_lt _ _ L2 w0)).
  replace (N / W - N' / W') with ((N * (W' - W) + W * (N - N')) * / (W * W')) by (field; auto).
  rewrite Qcabs_mul. unfold Qcdiv. rewrite <- Qcmult_assoc, (Qcmult_comm (/ (w * w))), Qcmult_assoc.
  assert (0 < w * w) as Pww by (apply Qcmul_pos; assumption). assert (w * w <= W * W') as Lww by (apply Qcmul_le2; try assumption; qc_lra).
  assert (0 < W * W') as PW2 by qc_lra.
  apply Qcmul_le2; try apply Qcabs_nonneg.
  - eapply Qcle_trans; [apply Qcabs_triangle|]. rewrite !Qcabs_mul. replace ((KN * KW + KN * KW) * h) with (KN * (KW * h) + KW * (KN * h)) by ring.
    assert (Qcabs N * Qcabs (W' - W) <= KN * (KW * h)) as Q1.
    { apply Qcmul_le2; try apply Qcabs_nonneg; [assumption|]. rewrite <- Qcabs_opp. replace (- (W' - W)) with (W - W') by ring. assumption. }
    assert (Qcabs W * Qcabs (N - N') <= KW * (KN * h)) as Q2 by (apply Qcmul_le2; try apply Qcabs_nonneg; assumption). qc_lra.
  - pose proof (Qcinv_pos _ PW2) as P1. pose proof (Qcinv_pos _ Pww) as P2.
    assert (Qcabs (/ (W * W')) = / (W * W')) as ->. { destruct (Qcabs_cases (/ (W * W'))) as [[H E]|[H E]]; [exact E|exfalso; qc_lra]. }
    apply inv_anti; assumption.
Qed.

(** sums of basis functions over the domain *)
Definition bsum (U : list Qc) (n p : nat) (f : nat -> Qc) (t : Qc) : Qc := qsum (fun i => basis_at U n p t i * f i) (S n).
Lemma bsum_phi U n p f t : valid_knots n p U -> in_domain n p U t -> bsum U n p f t = phi U n p 0 f t.
Proof.
  intros V D. destruct (sp_ok _ _ _ _ V D) as (_ & _ & I). unfold bsum, phi, dsum. apply qsum_ext. intros i _. rewrite (basis_at_bsp _ _ _ _ _ i V D I). reflexivity.
Qed.
Lemma bsum_lip U n p f : valid_knots n p U -> inner_multiplicity n p U p ->
  exists K, 0 <= K /\ (forall t, in_domain n p U t -> Qcabs (bsum U n p f t) <= K) /\
    forall t t', in_domain n p U t -> in_domain n p U t' -> Qcabs (bsum U n p f t - bsum U n p f t') <= K * Qcabs (t - t').
Proof.
  intros V IM. destruct (phi_lip U n p f V IM) as (K & K0 & A & B). exists K. split; [exact K0|]. split; intros; rewrite !bsum_phi by assumption; auto.
Qed.
(** one constant for the families f 0, ..., f k *)
Lemma bsum_lip_all U n p (f : nat -> nat -> Qc) k : valid_knots n p U -> inner_multiplicity n p U p ->
  exists K, 0 <= K /\ forall j, (j < k)%nat -> (forall t, in_domain n p U t -> Qcabs (bsum U n p (f j) t) <= K) /\
    forall t t', in_domain n p U t -> in_domain n p U t' -> Qcabs (bsum U n p (f j) t - bsum U n p (f j) t') <= K * Qcabs (t - t').
Proof.
  intros V IM. induction k as [|k (K & K0 & H)]; [exists 0; split; [apply Qcle_refl|lia]|].
  destruct (bsum_lip U n p (f k) V IM) as (K' & K0' & A & B). exists (K + K'). split; [qc_lra|]. intros j Hj.
  assert (forall t t', K * Qcabs (t - t') <= (K + K') * Qcabs (t - t') /\ K' * Qcabs (t - t') <= (K + K') * Qcabs (t - t')) as M.
  { intros t t'. pose proof (Qcabs_nonneg (t - t')). replace ((K + K') * Qcabs (t - t')) with (K * Qcabs (t - t') + K' * Qcabs (t - t')) by ring.
    assert (0 <= K * Qcabs (t - t')) by (apply ProofMinimize.Qcmul_nonneg; assumption). assert (0 <= K' * Qcabs (t - t')) by (apply ProofMinimize.Qcmul_nonneg; assumption). split; qc_lra. }
  destruct (Nat.eq_dec j k) as [->|N].
  - split; [intros t D; specialize (A t D); qc_lra|]. intros t t' D D'. eapply Qcle_trans; [apply B; assumption|apply M].
  - destruct (H j ltac:(lia)) as [A' B']. split; [intros t D; specialize (A' t D); qc_lra|]. intros t t' D D'. eapply Qcle_trans; [apply B'; assumption|apply M].
Qed.

Lemma abs_qsum f n : Qcabs (qsum f n) <= qsum (fun i => Qcabs (f i)) n.
Proof. induction n; cbn [qsum]; [rewrite Qcabs_0; apply Qcle_refl|]. pose proof (Qcabs_triangle (qsum f n) (f n)). qc_lra. Qed.
Lemma qsum_const k n : qsum (fun _ => k) n = Qc_of_nat n * k.
Proof. induction n; cbn [qsum]; [replace (Qc_of_nat 0) with 0 by (apply Qc_is_canon; reflexivity); ring|]. rewrite IHn, Qc_of_nat_S. ring. Qed.
Lemma Qc_of_nat_nonneg n : 0 <= Qc_of_nat n.
Proof. induction n; [apply Qcle_refl|]. rewrite Qc_of_nat_S. qc_lra. Qed.

Lemma tensor_lip s n m f : good_surf s n m ->
  inner_multiplicity n (ns_du s) (ns_ku s) (ns_du s) -> inner_multiplicity m (ns_dv s) (ns_kv s) (ns_dv s) ->
  exists K, 0 <= K /\ (forall u v, in_surf s n m u v -> Qcabs (tensor f s n m u v) <= K) /\
    forall u v u' v', in_surf s n m u v -> in_surf s n m u' v' -> Qcabs (tensor f s n m u v - tensor f s n m u' v') <= K * apart u v u' v'.
Proof.
  intros (G1 & G2 & G3 & G4 & VU & VV & _) IU IV.
  (* rows in u, and the bare basis functions in either direction *)
  set (e := fun i j : nat => if Nat.eqb i j then 1 else 0 : Qc).
  assert (forall U k p t i, (i < S k)%nat -> bsum U k p (e i) t = basis_at U k p t i) as PICK.
  { intros U k p t i Hi. unfold bsum. replace (S k) with (i + (S (k - i)))%nat by lia. rewrite qsum_split. rewrite qsum_shift.
    rewrite qsum_zero by (intros j Hj; unfold e; destruct (Nat.eqb_spec i j); [lia|ring]).
    rewrite (qsum_zero (fun i0 => _)) by (intros j Hj; unfold e; destruct (Nat.eqb_spec i (i + S j)); [lia|ring]).
    rewrite Nat.add_0_r. unfold e. rewrite Nat.eqb_refl. ring. }
  destruct (bsum_lip_all (ns_ku s) n (ns_du s) (fun j i => f (cp (ns_cps s) i j)) (S m) VU IU) as (A & A0 & HA).
  destruct (bsum_lip_all (ns_kv s) m (ns_dv s) (fun i j => f (cp (ns_cps s) i j)) (S n) VV IV) as (B & B0 & HB).
  destruct (bsum_lip_all (ns_ku s) n (ns_du s) e (S n) VU IU) as (C & C0 & HC).
  destruct (bsum_lip_all (ns_kv s) m (ns_dv s) e (S m) VV IV) as (D & D0 & HD).
  set (k1 := Qc_of_nat (S m) * (D * A)). set (k2 := Qc_of_nat (S n) * (C * B)).
  assert (0 <= k1) as K1 by (apply ProofMinimize.Qcmul_nonneg; [apply Qc_of_nat_nonneg|apply ProofMinimize.Qcmul_nonneg; assumption]).
  assert (0 <= k2) as K2 by (apply ProofMinimize.Qcmul_nonneg; [apply Qc_of_nat_nonneg|apply ProofMinimize.Qcmul_nonneg; assumption]).
  exists (k1 + k2). split; [qc_lra|]. split.
  - intros u v [DU DV]. rewrite tensor_v. eapply Qcle_trans; [apply abs_qsum|].
    assert (qsum (fun i => Qcabs (basis_at (ns_kv s) m (ns_dv s) v i * qsum (fun i0 => basis_at (ns_ku s) n (ns_du s) u i0 * f (cp (ns_cps s) i0 i)) (S n))) (S m) <= qsum (fun _ => D * A) (S m)) as L.
    { apply qsum_le. intros j Hj. rewrite Qcabs_mul. apply Qcmul_le2; try apply Qcabs_nonneg.
      - rewrite <- PICK by assumption. exact (proj1 (HD j Hj) v DV).
      - exact (proj1 (HA j Hj) u DU). }
    rewrite qsum_const in L. fold k1 in L. qc_lra.
  - intros u v u' v' [DU DV] [DU' DV']. unfold apart.
    replace (tensor f s n m u v - tensor f s n m u' v') with ((tensor f s n m u v - tensor f s n m u' v) + (tensor f s n m u' v - tensor f s n m u' v')) by ring.
    eapply Qcle_trans; [apply Qcabs_triangle|].
    assert (Qcabs (tensor f s n m u v - tensor f s n m u' v) <= k1 * Qcabs (u - u')) as L1.
    { rewrite !tensor_v. match goal with |- Qcabs (qsum ?F _ - qsum ?G _) <= _ => replace (qsum F (S m) - qsum G (S m)) with (qsum (fun j => F j + - (1) * G j) (S m)) by (rewrite qsum_add, qsum_scale; ring) end.
      eapply Qcle_trans; [apply abs_qsum|]. replace (k1 * Qcabs (u - u')) with (qsum (fun _ => D * (A * Qcabs (u - u'))) (S m)) by (rewrite qsum_const; unfold k1; ring).
      apply qsum_le. intros j Hj. cbv beta.
      match goal with |- Qcabs (?M * ?X + - (1) * (?M * ?Y)) <= _ => replace (M * X + - (1) * (M * Y)) with (M * (X - Y)) by ring end.
      rewrite Qcabs_mul. apply Qcmul_le2; try apply Qcabs_nonneg; [rewrite <- PICK by assumption; exact (proj1 (HD j Hj) v DV)|]. exact (proj2 (HA j Hj) u u' DU DU'). }
    assert (Qcabs (tensor f s n m u' v - tensor f s n m u' v') <= k2 * Qcabs (v - v')) as L2.
    { rewrite !tensor_u. match goal with |- Qcabs (qsum ?F _ - qsum ?G _) <= _ => replace (qsum F (S n) - qsum G (S n)) with (qsum (fun j => F j + - (1) * G j) (S n)) by (rewrite qsum_add, qsum_scale; ring) end.
      eapply Qcle_trans; [apply abs_qsum|]. replace (k2 * Qcabs (v - v')) with (qsum (fun _ => C * (B * Qcabs (v - v'))) (S n)) by (rewrite qsum_const; unfold k2; ring).
      apply qsum_le. intros j Hj. cbv beta.
      match goal with |- Qcabs (?M * ?X + - (1) * (?M * ?Y)) <= _ => replace (M * X + - (1) * (M * Y)) with (M * (X - Y)) by ring end.
      rewrite Qcabs_mul. apply Qcmul_le2; try apply Qcabs_nonneg; [rewrite <- PICK by assumption; exact (proj1 (HC j Hj) u' DU')|]. exact (proj2 (HB j Hj) v v' DV DV'). }
    pose proof (Qcabs_nonneg (u - u')) as P1. pose proof (Qcabs_nonneg (v - v')) as P2.
    replace ((k1 + k2) * (Qcabs (u - u') + Qcabs (v - v'))) with (k1 * Qcabs (u - u') + k2 * Qcabs (v - v') + (k2 * Qcabs (u - u') + k1 * Qcabs (v - v'))) by ring.
    assert (0 <= k2 * Qcabs (u - u')) by (apply ProofMinimize.Qcmul_nonneg; assumption). assert (0 <= k1 * Qcabs (v - v')) by (apply ProofMinimize.Qcmul_nonneg; assumption). qc_lra.
Qed.

Lemma surf_min_weight s n m : good_surf s n m -> positive_surf s ->
  exists w, 0 < w /\ forall i j, (i < S n)%nat -> (j < S m)%nat -> w <= ww (cp (ns_cps s) i j).
Proof.
  intros G W. pose proof G as (G1 & G2 & _).
  assert (positive_weights (concat (ns_cps s))) as PW. { intros q Hq. apply in_concat in Hq. destruct Hq as (row & Hr & Hq). eapply W; eassumption. }
  destruct (min_weight _ PW) as (w & w0 & H). exists w. split; [exact w0|]. intros i j Hi Hj. destruct (cp_in s n m i j G Hi Hj) as [A B]. apply H. apply in_concat. eauto.
Qed.

Lemma surface_continuous_top s n m : good_surf s n m -> positive_surf s ->
  inner_multiplicity n (ns_du s) (ns_ku s) (ns_du s) -> inner_multiplicity m (ns_dv s) (ns_kv s) (ns_dv s) ->
  exists K, forall u v u' v', in_surf s n m u v -> in_surf s n m u' v' ->
    exists p p', ns_evaluate s u v = Ok p /\ ns_evaluate s u' v' = Ok p' /\ within3 p p' (K * apart u v u' v').
Proof.
  intros G W IU IV. destruct (surf_min_weight s n m G W) as (w & w0 & Hw).
  destruct (tensor_lip s n m ww G IU IV) as (KW & PW & BW & LW).
  assert (forall f : vec4 -> Qc, exists K, forall u v u' v', in_surf s n m u v -> in_surf s n m u' v' ->
    Qcabs (tensor f s n m u v / tensor ww s n m u v - tensor f s n m u' v' / tensor ww s n m u' v') <= K * apart u v u' v') as K.
  { intros f. destruct (tensor_lip s n m f G IU IV) as (KN & PN & BN & LN). exists ((KN * KW + KN * KW) / (w * w)). intros u v u' v' D D'.
    apply quotient_near; try assumption; auto.
    - unfold apart. pose proof (Qcabs_nonneg (u - u')). pose proof (Qcabs_nonneg (v - v')). qc_lra.
    - apply tensor_lower; assumption.
    - apply tensor_lower; assumption. }
  destruct (K wx) as (Kx & Hx). destruct (K wy) as (Ky & Hy). destruct (K wz) as (Kz & Hz).
  exists (Qcabs Kx + Qcabs Ky + Qcabs Kz). intros u v u' v' D D'. exists (surf_point s n m u v), (surf_point s n m u' v').
  split; [apply evaluate_positive_surf; assumption|]. split; [apply evaluate_positive_surf; assumption|].
  specialize (Hx u v u' v' D D'). specialize (Hy u v u' v' D D'). specialize (Hz u v u' v' D D').
  assert (0 <= apart u v u' v') as H0. { unfold apart. pose proof (Qcabs_nonneg (u - u')). pose proof (Qcabs_nonneg (v - v')). qc_lra. }
  set (h := apart u v u' v') in *. clearbody h.
  pose proof (Qcabs_nonneg Kx). pose proof (Qcabs_nonneg Ky). pose proof (Qcabs_nonneg Kz).
  assert (forall a b, a <= b -> a * h <= b * h) as Mh. { intros a b L. rewrite (Qcmult_comm a), (Qcmult_comm b). apply Qcmul_le_l; assumption. }
  assert (forall a, a <= Qcabs a) as Ab. { intros a. destruct (Qcabs_cases a) as [[? ->]|[? ->]]; qc_lra. }
  pose proof (Ab Kx). pose proof (Ab Ky). pose proof (Ab Kz).
  unfold within3, surf_point. cbn [vx vy vz]. repeat split; (eapply Qcle_trans; [eassumption|]; apply Mh; qc_lra).
Qed.

(** ** quadratics *)
Definition quadr (f : Qc -> Qc) : Prop := exists a b c, forall u, f u = a + u * b + u * u * c.
Lemma quadr_qsum (f : nat -> Qc -> Qc) (g : nat -> Qc) n : (forall i, quadr (f i)) -> quadr (fun u => qsum (fun i => f i u * g i) n).
Proof.
  intros H. induction n as [|n (a & b & c & E)]; cbn [qsum]; [exists 0, 0, 0; intros; ring|].
  destruct (H n) as (a' & b' & c' & E'). exists (a + a' * g n), (b + b' * g n), (c + c' * g n). intros u. rewrite E, E'. ring.
Qed.
Lemma bsp_quadr U s p i : (p <= 2)%nat -> quadr (bsp U s p i).
Proof.
  assert (forall i, exists a b, forall u, bsp U s 1 i u = a + u * b) as L.
  { intros j. eexists _, _. intros u. cbn [bsp]. unfold Qcdiv.
    match goal with |- (u - ?x) * ?k * ?e + (?y - u) * ?k' * ?e' = _ => transitivity ((- x * k * e + y * k' * e') + u * (k * e - k' * e')); [ring|reflexivity] end. }
  intros Hp. destruct p as [|[|[|p]]]; [| | |lia].
  - exists (if Nat.eqb i s then 1 else 0), 0, 0. intros u. cbn [bsp]. ring.
  - destruct (L i) as (a & b & E). exists a, b, 0. intros u. rewrite E. ring.
  - destruct (L i) as (a & b & E). destruct (L (i + 1)%nat) as (a' & b' & E').
    set (k := / (U (i + 2)%nat - U i)). set (k' := / (U (i + 2 + 1)%nat - U (i + 1)%nat)).
    exists (- U i * k * a + U (i + 2 + 1)%nat * k' * a'), (k * a - U i * k * b - k' * a' + U (i + 2 + 1)%nat * k' * b'), (k * b - k' * b').
    intros u. change (bsp U s 2 i u) with ((u - U i) / (U (i + 2)%nat - U i) * bsp U s 1 i u + (U (i + 2 + 1)%nat - u) / (U (i + 2 + 1)%nat - U (i + 1)%nat) * bsp U s 1 (i + 1) u).
    rewrite E, E'. unfold Qcdiv. fold k k'. ring.
Qed.

(** in a window without knots a sum of basis functions is one polynomial *)
Lemma window U n p lo hi : valid_knots n p U -> in_domain n p U lo -> hi < knot U (n + 1) -> lo <= hi -> no_knot U lo hi ->
  exists s, forall u, lo <= u -> u <= hi -> in_domain n p U u /\ forall f, bsum U n p f u = dsum U n p 0 s f u.
Proof.
  intros V D H L NK. destruct (sp_ok _ _ _ _ V D) as (_ & Hs & I). exists (sp n p U lo). set (s := sp n p U lo) in *. clearbody s.
  pose proof I as (A & B & C). intros u U1 U2.
  assert (in_domain n p U u) as DU by (destruct D; split; qc_lra). split; [exact DU|]. intros f. rewrite (bsum_phi U n p f u V DU). apply phi_span; try assumption.
  split; [exact A|]. split; [qc_lra|]. left. pose proof V as (V1 & V2 & _).
  assert (In (knot U (S s)) U) as IN by (unfold knot; apply nth_In; lia).
  destruct (NK _ IN) as [Q|Q]; [|qc_lra]. exfalso. rewrite Nat.add_1_r in *. destruct C as [C|[-> C]]; qc_lra.
Qed.

(** ** differences *)
Lemma unit_tensor s n m u v : good_surf s n m -> unit_surf s -> in_surf s n m u v -> tensor ww s n m u v = 1.
Proof.
  intros G W D. pose proof G as (G1 & G2 & _).
  assert (forall i j, (i < S n)%nat -> (j < S m)%nat -> ww (cp (ns_cps s) i j) = 1) as E by (intros i j Hi Hj; destruct (cp_in s n m i j G Hi Hj); eapply W; eassumption).
  apply Qcle_antisym.
  - pose proof (tensor_lower s n m u v (fun q => - ww q) (- (1)) G D) as L.
    assert (tensor (fun q => - ww q) s n m u v = - tensor ww s n m u v) as T.
    { unfold tensor. match goal with |- _ = - ?X => transitivity ((- (1)) * X); [|ring] end.
      rewrite <- qsum_scale. apply qsum_ext. intros i _. rewrite <- qsum_scale. apply qsum_ext. intros j _. ring. }
    rewrite T in L. assert (- (1) <= - tensor ww s n m u v) as L' by (apply L; intros i j Hi Hj; rewrite E by assumption; apply Qcle_refl). qc_lra.
  - apply tensor_lower; [assumption|assumption|]. intros i j Hi Hj. rewrite E by assumption. apply Qcle_refl.
Qed.
Lemma unit_positive_surf s : unit_surf s -> positive_surf s.
Proof. intros W row q Hr Hq. rewrite (W row q Hr Hq). reflexivity. Qed.
Lemma unit_evaluate s n m u v : good_surf s n m -> unit_surf s -> in_surf s n m u v ->
  ns_evaluate s u v = Ok (V3 (tensor wx s n m u v) (tensor wy s n m u v) (tensor wz s n m u v)).
Proof.
  intros G W D. rewrite (evaluate_positive_surf s n m) by (try assumption; apply unit_positive_surf; assumption).
  unfold surf_point. rewrite (unit_tensor s n m u v G W D). f_equal. f_equal; field; discriminate.
Qed.

Lemma fdm_h_pos : 0 < fdm_h. Proof. reflexivity. Qed.
Lemma fdm_double : fdm_2h = (1 + 1) * fdm_h. Proof. apply Qc_is_canon. vm_compute. reflexivity. Qed.

(** a function that is quadratic around t has the difference as its velocity *)
Lemma quad_velocity (f : Qc -> res vec3) (dom : Qc -> Prop) p d a t :
  (forall u, t - fdm_h <= u -> u <= t + fdm_h -> f u = Ok (quad3 p d a u)) ->
  (x <- f (t - fdm_h) ;; y <- f (t + fdm_h) ;; Ok (v3scale_div (v3minus y x) fdm_2h)) = Ok (ahead d (t + t) a) /\
  has_velocity f dom t (ahead d (t + t) a).
Proof.
  intros H. pose proof fdm_h_pos as P. rewrite fdm_double. set (h := fdm_h) in *. clearbody h. split.
  - rewrite (H (t - h)), (H (t + h)) by qc_lra. cbn [bind]. unfold v3scale_div, v3minus, quad3, ahead. cbn [vx vy vz].
    assert (forall x y z, (x + (t + h) * y + (t + h) * (t + h) * z - (x + (t - h) * y + (t - h) * (t - h) * z)) / ((1 + 1) * h) = y + (t + t) * z) as E.
    { intros. assert (h <> 0) by (intros X; rewrite X in P; discriminate P). field. split; [assumption|discriminate]. }
    rewrite !E. reflexivity.
  - exists (quad3 p d a t). split; [apply H; qc_lra|]. intros eps He.
    set (A := Qcabs (vx a) + Qcabs (vy a) + Qcabs (vz a) + 1).
    pose proof (Qcabs_nonneg (vx a)). pose proof (Qcabs_nonneg (vy a)). pose proof (Qcabs_nonneg (vz a)).
    assert (0 < A) as PA by (unfold A; qc_lra). assert (A <> 0) as NA by (intros X; rewrite X in PA; discriminate PA).
    destruct (Qcmin_pos (eps / A) h) as (delta & D0 & D1 & D2); [unfold Qcdiv; apply Qcmul_pos; [assumption|apply Qcinv_pos; assumption]|assumption|].
    exists delta. split; [exact D0|]. intros t' _ Ht. pose proof (proj1 (Qcabs_le _ _) Ht) as [T1 T2].
    exists (quad3 p d a t'). split; [apply H; qc_lra|].
    assert (forall x y z, Qcabs z <= A -> Qcabs (x + t' * y + t' * t' * z - (x + t * y + t * t * z + (t' - t) * (y + (t + t) * z))) <= eps * Qcabs (t' - t)) as K.
    { intros x y z Hz. replace (x + t' * y + t' * t' * z - (x + t * y + t * t * z + (t' - t) * (y + (t + t) * z))) with ((z * (t' - t)) * (t' - t)) by ring.
      rewrite !Qcabs_mul. rewrite (Qcmult_comm _ (Qcabs (t' - t))), (Qcmult_comm eps). apply Qcmul_le_l; [apply Qcabs_nonneg|].
      replace eps with (A * (eps / A)) by (field; assumption). apply Qcmul_le2; try apply Qcabs_nonneg; [assumption|]. eapply Qcle_trans; eassumption. }
    unfold within3, quad3, ahead. cbn [vx vy vz]. repeat split; apply K; unfold A; qc_lra.
Qed.

Lemma window_quadr U n p s f : (p <= 2)%nat -> quadr (dsum U n p 0 s f).
Proof. intros Hp. unfold dsum. apply (quadr_qsum (fun i u => bspd (knot U) s 0 p i u)). intros i. cbn [bspd]. apply bsp_quadr. exact Hp. Qed.

Lemma derivative_u_top s n m u v : good_surf s n m -> unit_surf s -> (ns_du s <= 2)%nat ->
  in_surf s n m (u - fdm_h) v -> u + fdm_h < knot (ns_ku s) (n + 1) -> no_knot (ns_ku s) (u - fdm_h) (u + fdm_h) ->
  exists d, ns_derivative_u s u v = Ok d /\ has_velocity (fun u' => ns_evaluate s u' v) (fun u' => in_domain n (ns_du s) (ns_ku s) u') u d.
Proof.
  intros G W H2 [DU DV] HH NK. pose proof G as (_ & _ & _ & _ & VU & VV & _). pose proof fdm_h_pos as P.
  destruct (window (ns_ku s) n (ns_du s) (u - fdm_h) (u + fdm_h) VU DU HH) as (sp & WI); [set (h := fdm_h) in *; clearbody h; qc_lra|exact NK|].
  assert (forall f : vec4 -> Qc, exists a b c, forall u', u - fdm_h <= u' -> u' <= u + fdm_h -> tensor f s n m u' v = a + u' * b + u' * u' * c) as Q.
  { intros f. set (row := fun i => qsum (fun j => basis_at (ns_kv s) m (ns_dv s) v j * f (cp (ns_cps s) i j)) (S m)).
    destruct (window_quadr (ns_ku s) n (ns_du s) sp row H2) as (a & b & c & E). exists a, b, c. intros u' U1 U2. rewrite tensor_u.
    destruct (WI u' U1 U2) as [_ WE]. change (bsum (ns_ku s) n (ns_du s) row u' = a + u' * b + u' * u' * c). rewrite WE. apply E. }
  destruct (Q wx) as (ax & bx & cx & Ex). destruct (Q wy) as (ay & bY & cy & Ey). destruct (Q wz) as (az & bz & cz & Ez).
  destruct (quad_velocity (fun u' => ns_evaluate s u' v) (fun u' => in_domain n (ns_du s) (ns_ku s) u') (V3 ax ay az) (V3 bx bY bz) (V3 cx cy cz) u) as (A & B).
  { intros u' U1 U2. destruct (WI u' U1 U2) as [D _]. rewrite (unit_evaluate s n m) by (try assumption; split; assumption).
    rewrite Ex, Ey, Ez by assumption. reflexivity. }
  eexists. split; [exact A|exact B].
Qed.
Lemma derivative_v_top s n m u v : good_surf s n m -> unit_surf s -> (ns_dv s <= 2)%nat ->
  in_surf s n m u (v - fdm_h) -> v + fdm_h < knot (ns_kv s) (m + 1) -> no_knot (ns_kv s) (v - fdm_h) (v + fdm_h) ->
  exists d, ns_derivative_v s u v = Ok d /\ has_velocity (fun v' => ns_evaluate s u v') (fun v' => in_domain m (ns_dv s) (ns_kv s) v') v d.
Proof.
  intros G W H2 [DU DV] HH NK. pose proof G as (_ & _ & _ & _ & VU & VV & _). pose proof fdm_h_pos as P.
  destruct (window (ns_kv s) m (ns_dv s) (v - fdm_h) (v + fdm_h) VV DV HH) as (sp & WI); [set (h := fdm_h) in *; clearbody h; qc_lra|exact NK|].
  assert (forall f : vec4 -> Qc, exists a b c, forall v', v - fdm_h <= v' -> v' <= v + fdm_h -> tensor f s n m u v' = a + v' * b + v' * v' * c) as Q.
  { intros f. set (row := fun j => qsum (fun i => basis_at (ns_ku s) n (ns_du s) u i * f (cp (ns_cps s) i j)) (S n)).
    destruct (window_quadr (ns_kv s) m (ns_dv s) sp row H2) as (a & b & c & E). exists a, b, c. intros v' U1 U2. rewrite tensor_v.
    destruct (WI v' U1 U2) as [_ WE]. change (bsum (ns_kv s) m (ns_dv s) row v' = a + v' * b + v' * v' * c). rewrite WE. apply E. }
  destruct (Q wx) as (ax & bx & cx & Ex). destruct (Q wy) as (ay & bY & cy & Ey). destruct (Q wz) as (az & bz & cz & Ez).
  destruct (quad_velocity (fun v' => ns_evaluate s u v') (fun v' => in_domain m (ns_dv s) (ns_kv s) v') (V3 ax ay az) (V3 bx bY bz) (V3 cx cy cz) v) as (A & B).
  { intros v' U1 U2. destruct (WI v' U1 U2) as [D _]. rewrite (unit_evaluate s n m) by (try assumption; split; assumption).
    rewrite Ex, Ey, Ez by assumption. reflexivity. }
  eexists. split; [exact A|exact B].
Qed.

(** ** normals *)
Lemma normal_perp len s u v du dv : ns_derivative_u s u v = Ok du -> ns_derivative_v s u v = Ok dv ->
  exists k, ns_normal len s u v = Ok k /\ v3dot k du = 0 /\ v3dot k dv = 0.
Proof.
  intros E1 E2. unfold ns_normal. rewrite E1. cbn [bind]. rewrite E2. cbn [bind]. eexists. split; [reflexivity|].
  unfold vunit. destruct (len (v3cross du dv)) as [l|]; [destruct (_ || _)|]; unfold v3dot, v3cross; cbn [vx vy vz]; unfold Qcdiv; split; ring.
Qed.
Lemma normal_unit len s u v du dv l : ns_derivative_u s u v = Ok du -> ns_derivative_v s u v = Ok dv ->
  len (v3cross du dv) = Some l -> l * l = v3sq (v3cross du dv) -> 1 + DBL_EPS < l ->
  exists k, ns_normal len s u v = Ok k /\ v3sq k = 1 /\ v3cross du dv = V3 (l * vx k) (l * vy k) (l * vz k).
Proof.
  intros E1 E2 L SQ H. unfold ns_normal. rewrite E1. cbn [bind]. rewrite E2. cbn [bind]. eexists. split; [reflexivity|].
  assert (0 < DBL_EPS) as EP by reflexivity. assert (l <> 0) as N by (intros X; rewrite X in H; clear - H EP; set (e := DBL_EPS) in *; clearbody e; qc_lra).
  unfold vunit. rewrite L. destruct (Qcleb_spec l DBL_EPS) as [X|_]; [exfalso; clear - X H; set (e := DBL_EPS) in *; clearbody e; qc_lra|].
  destruct (Qcleb_spec (l - 1) DBL_EPS) as [X|_]; [exfalso; clear - X H; set (e := DBL_EPS) in *; clearbody e; qc_lra|]. cbn [orb].
  set (c := v3cross du dv) in *. clearbody c. destruct c as [x y z]. unfold v3sq in *. cbn [vx vy vz] in *. split.
  - transitivity ((x * x + y * y + z * z) / (l * l)); [field; exact N|]. rewrite <- SQ. field. exact N.
  - f_equal; field; exact N.
Qed.
(** a cross product of length at most one is returned as it is *)
Lemma normal_short len s u v du dv l : ns_derivative_u s u v = Ok du -> ns_derivative_v s u v = Ok dv ->
  len (v3cross du dv) = Some l -> l <= 1 -> ns_normal len s u v = Ok (v3cross du dv).
Proof.
  intros E1 E2 L H. unfold ns_normal. rewrite E1. cbn [bind]. rewrite E2. cbn [bind]. f_equal. unfold vunit. rewrite L.
  assert (0 < DBL_EPS) as EP by reflexivity. destruct (Qcleb_spec (l - 1) DBL_EPS) as [_|X]; [rewrite orb_true_r; reflexivity|].
  exfalso. clear - X H EP. set (e := DBL_EPS) in *. clearbody e. qc_lra.
Qed.

(** ** cross products of surfaces *)
Lemma mapM_ub {A B} (f : A -> res B) l x : In x l -> (forall y, In y l -> f y = UB \/ exists z, f y = Ok z) -> f x = UB -> mapM f l = UB.
Proof.
  induction l as [|y l IH]; intros I H E; [destruct I|]. cbn [mapM]. destruct (H y (or_introl eq_refl)) as [->|(z & Ez)]; [reflexivity|].
  destruct I as [->|I]; [congruence|]. rewrite Ez. cbn [bind]. rewrite IH; [reflexivity|exact I| |exact E]. intros w Hw. apply H. right. exact Hw.
Qed.
Lemma mapM_ub_ok {A B} (f : A -> res B) l : (forall y, In y l -> f y = UB \/ exists z, f y = Ok z) -> mapM f l = UB \/ exists z, mapM f l = Ok z.
Proof.
  induction l as [|y l IH]; intros H; [right; eexists; reflexivity|]. cbn [mapM]. destruct (H y (or_introl eq_refl)) as [->|(z & ->)]; [left; reflexivity|].
  cbn [bind]. destruct IH as [->|(t & ->)]; [intros w Hw; apply H; right; exact Hw|left; reflexivity|right; eexists; reflexivity].
Qed.
Lemma get2_cases {A} (l : list (list A)) i j : get2 l i j = UB \/ exists x, get2 l i j = Ok x.
Proof.
  unfold get2, getZ. destruct (i <? 0)%Z; [left; reflexivity|]. unfold get. destruct (nth_error l (Z.to_nat i)) as [row|]; [|left; reflexivity]. cbn [bind of_option].
  destruct (j <? 0)%Z; [left; reflexivity|]. destruct (nth_error row (Z.to_nat j)); [right; eexists; reflexivity|left; reflexivity].
Qed.
Lemma qdiv_cases a b : qdiv a b = UB \/ exists x, qdiv a b = Ok x.
Proof. unfold qdiv. destruct (_ =? _); [left; reflexivity|right; eexists; reflexivity]. Qed.
Lemma to_vec3_cases p : to_vec3 p = UB \/ exists x, to_vec3 p = Ok x.
Proof.
  unfold to_vec3. destruct (qdiv_cases (wx p) (ww p)) as [->|(x & ->)]; [left; reflexivity|]. cbn [bind]. destruct (qdiv_cases (wy p) (ww p)) as [->|(y & ->)]; [left; reflexivity|].
  cbn [bind]. destruct (qdiv_cases (wz p) (ww p)) as [->|(z & ->)]; [left; reflexivity|right; eexists; reflexivity].
Qed.
Lemma cross_into_cases p q : v4cross_into p q = UB \/ exists x, v4cross_into p q = Ok x.
Proof.
  unfold v4cross_into. destruct (to_vec3_cases p) as [->|(x & ->)]; [left; reflexivity|]. cbn [bind]. destruct (to_vec3_cases q) as [->|(y & ->)]; [left; reflexivity|right; eexists; reflexivity].
Qed.

(** surfaces with a net that is not square: undefined behaviour *)
Lemma cross_not_square a b n m n' m' : good_surf a n m -> good_surf b n' m' -> ((n' < m)%nat \/ (m' < n)%nat) -> ns_cross a b = UB.
Proof.
  intros (A1 & A2 & A3 & A4 & _) (B1 & B2 & B3 & B4 & _) H. unfold ns_cross. rewrite A3, A4.
  set (inner := fun k j : nat => p <- get2 (ns_cps a) (Z.of_nat k) (Z.of_nat j) ;; q <- get2 (ns_cps b) (Z.of_nat j) (Z.of_nat k) ;; v4cross_into p q).
  assert (forall k j, inner k j = UB \/ exists z, inner k j = Ok z) as IC.
  { intros k j. unfold inner. destruct (get2_cases (ns_cps a) (Z.of_nat k) (Z.of_nat j)) as [->|(x & ->)]; [left; reflexivity|]. cbn [bind].
    destruct (get2_cases (ns_cps b) (Z.of_nat j) (Z.of_nat k)) as [->|(y & ->)]; [left; reflexivity|]. cbn [bind]. apply cross_into_cases. }
  assert (forall k j, (k <= n)%nat -> (j <= m)%nat -> (n' < j)%nat \/ (m' < k)%nat -> inner k j = UB) as OUT.
  { intros k j Hk Hj O. unfold inner. destruct (get2_cases (ns_cps a) (Z.of_nat k) (Z.of_nat j)) as [->|(x & ->)]; [reflexivity|]. cbn [bind].
    enough (get2 (ns_cps b) (Z.of_nat j) (Z.of_nat k) = UB) as -> by reflexivity.
    unfold get2, getZ. destruct (Z.ltb_spec (Z.of_nat j) 0); [lia|]. rewrite Nat2Z.id. unfold get.
    destruct (nth_error (ns_cps b) j) as [row|] eqn:E; [|reflexivity]. cbn [bind of_option]. destruct (Z.ltb_spec (Z.of_nat k) 0); [lia|]. rewrite Nat2Z.id.
    assert (j < length (ns_cps b))%nat by (apply nth_error_Some; congruence). pose proof (B2 row (nth_error_In _ _ E)).
    rewrite (proj2 (nth_error_None row k)) by lia. reflexivity. }
  cut (mapM (fun k => mapM (inner k) (seq 0 (S m))) (seq 0 (S n)) = UB). { intros E. unfold inner in E. rewrite E. reflexivity. }
  set (k := if Nat.ltb n' m then 0%nat else n). set (j := if Nat.ltb n' m then m else 0%nat).
  assert (k <= n /\ j <= m /\ (n' < j \/ m' < k))%nat as (Hk & Hj & O) by (unfold k, j; destruct (Nat.ltb_spec n' m); lia).
  apply (mapM_ub _ _ k); [apply in_seq; lia|intros; apply mapM_ub_ok; intros; apply IC|].
  apply (mapM_ub _ _ j); [apply in_seq; lia|intros; apply IC|]. apply OUT; assumption.
Qed.
Lemma cross_not_square_same a b n m : good_surf a n m -> good_surf b n m -> n <> m -> ns_cross a b = UB.
Proof. intros A B N. apply (cross_not_square a b n m n m A B). lia. Qed.
