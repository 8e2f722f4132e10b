(** What the difference quotients of polynomial curves and surfaces are, for every
    degree. *)
From Coq Require Import List ZArith QArith Qcanon Lia Bool.
From Verif Require Import Base BaseFacts LoopFacts ModelVec ModelAabb ModelNurbs ModelSurface ModelDerivative ModelPolygon ModelCsx ModelSurface2
  SpecAabb SpecNurbs SpecCurve SpecSurface SpecDerivative SpecSurface2 SpecTaylor
  ProofBspline ProofNurbs ProofInsertCurve ProofCurve ProofMinimize ProofDecompose ProofSmooth ProofDerivative ProofContinuity
  ProofSurfaceSums ProofSurface ProofSurfaceOps ProofSurfaceTop ProofSurfaceDiff WitnessDerivative.
Import ListNotations.
Open Scope Qc_scope.

(** ** arithmetic of coefficient lists *)
Fixpoint padd (a b : list Qc) : list Qc :=
  match a, b with
  | x :: a', y :: b' => (x + y) :: padd a' b'
  | [], _ => b
  | _, [] => a
  end.
Definition pscale (k : Qc) (a : list Qc) : list Qc := map (Qcmult k) a.

Lemma poly_padd a : forall b t, poly (padd a b) t = poly a t + poly b t.
Proof.
  induction a as [|x a IH]; intros [|y b] t; cbn [padd poly]; try ring. rewrite IH. ring.
Qed.
Lemma poly_pscale k a t : poly (pscale k a) t = k * poly a t.
Proof. induction a as [|x a IH]; cbn [pscale map poly]; [ring|]. fold (pscale k a). rewrite IH. ring. Qed.
Lemma padd_length a : forall b, length (padd a b) = Nat.max (length a) (length b).
Proof. induction a as [|x a IH]; intros [|y b]; cbn [padd length]; try reflexivity. rewrite IH. reflexivity. Qed.

Definition ispoly (t : Qc) (d : nat) (f : Qc -> Qc) : Prop := exists c, length c = S d /\ forall u, f u = poly c (u - t).

Lemma ispoly_zero t d : ispoly t d (fun _ => 0).
Proof.
  exists (repeat 0 (S d)). split; [apply repeat_length|]. intros u. induction (S d) as [|k IH]; cbn [repeat poly]; [reflexivity|]. rewrite <- IH. ring.
Qed.
Lemma ispoly_add t d f g : ispoly t d f -> ispoly t d g -> ispoly t d (fun u => f u + g u).
Proof.
  intros (a & La & A) (b & Lb & B). exists (padd a b). split; [rewrite padd_length; lia|]. intros u. rewrite A, B, poly_padd. reflexivity.
Qed.
Lemma ispoly_scale t d f k : ispoly t d f -> ispoly t d (fun u => f u * k).
Proof.
  intros (a & La & A). exists (pscale k a). split; [unfold pscale; rewrite map_length; assumption|]. intros u. rewrite A, poly_pscale. ring.
Qed.
Lemma ispoly_linear t d f x y : ispoly t d f -> ispoly t (S d) (fun u => (x + u * y) * f u).
Proof.
  intros (a & La & A). exists (padd (pscale (x + t * y) a) (0 :: pscale y a)). split.
  - rewrite padd_length. cbn [length]. unfold pscale. rewrite !map_length. lia.
  - intros u. rewrite poly_padd. cbn [poly]. rewrite !poly_pscale, A. ring.
Qed.

Lemma ispoly_ext t d f g : (forall u, f u = g u) -> ispoly t d f -> ispoly t d g.
Proof. intros E (c & L & C). exists c. split; [assumption|]. intros u. rewrite <- E. apply C. Qed.

Lemma bsp_ispoly U s t p : forall i, ispoly t p (bsp U s p i).
Proof.
  induction p as [|p IH]; intros i.
  - exists [if Nat.eqb i s then 1 else 0]. split; [reflexivity|]. intros u. cbn [bsp poly]. ring.
  - pose proof (ispoly_linear t p _ (- U i / (U (i + S p)%nat - U i)) (/ (U (i + S p)%nat - U i)) (IH i)) as A.
    pose proof (ispoly_linear t p _ (U (i + S p + 1)%nat / (U (i + S p + 1)%nat - U (i + 1)%nat)) (- / (U (i + S p + 1)%nat - U (i + 1)%nat)) (IH (i + 1)%nat)) as B.
    refine (ispoly_ext _ _ _ _ _ (ispoly_add _ _ _ _ A B)). intros u. cbv beta. rewrite bsp_S. unfold Qcdiv. ring.
Qed.

Lemma qsum_ispoly t d (f : nat -> Qc -> Qc) (g : nat -> Qc) n : (forall i, ispoly t d (f i)) -> ispoly t d (fun u => qsum (fun i => f i u * g i) n).
Proof.
  intros H. induction n as [|n IH]; cbn [qsum]; [apply ispoly_zero|]. apply ispoly_add; [exact IH|apply ispoly_scale; apply H].
Qed.
Lemma dsum_ispoly U n p s f t : ispoly t p (dsum U n p 0 s f).
Proof. unfold dsum. apply (qsum_ispoly t p (fun i u => bspd (knot U) s 0 p i u)). intros i. cbn [bspd]. apply bsp_ispoly. Qed.

(** ** differences of polynomials *)
Lemma poly_ind2 (P : list Qc -> Prop) : P [] -> (forall a, P [a]) -> (forall a b r, P r -> P (a :: b :: r)) -> forall c, P c.
Proof.
  intros H0 H1 H2. assert (forall n c, (length c <= n)%nat -> P c) as K.
  { induction n as [|n IH]; intros [|a [|b r]] L; cbn in L; try lia; auto. apply H2. apply IH. lia. }
  intros c. apply (K (length c)). lia.
Qed.
Lemma poly_odd c h : poly c h - poly c (- h) = (1 + 1) * h * every_second c h.
Proof.
  induction c as [|a|a b r IH] using poly_ind2; cbn [poly every_second]; try ring.
  replace (a + h * (b + h * poly r h) - (a + - h * (b + - h * poly r (- h)))) with ((1 + 1) * h * b + h * h * (poly r h - poly r (- h))) by ring.
  rewrite IH. ring.
Qed.
Lemma poly_even c h : poly c h + poly c (- h) - (1 + 1) * poly c 0 = (1 + 1) * (h * h) * every_second (tl c) h.
Proof.
  destruct c as [|a c]; [cbn; ring|]. cbn [poly tl].
  replace (a + h * poly c h + (a + - h * poly c (- h)) - (1 + 1) * (a + 0 * poly c 0)) with (h * (poly c h - poly c (- h))) by ring.
  rewrite poly_odd. ring.
Qed.

Fixpoint coef_sum (c : list Qc) : Qc := match c with [] => 0 | a :: r => Qcabs a + coef_sum r end.
Lemma coef_sum_nonneg c : 0 <= coef_sum c.
Proof. induction c as [|a r IH]; cbn; [apply Qcle_refl|]. pose proof (Qcabs_nonneg a). qc_lra. Qed.
Lemma poly_bound c t : Qcabs t <= 1 -> Qcabs (poly c t) <= coef_sum c.
Proof.
  intros Ht. induction c as [|a r IH]; cbn [poly coef_sum]; [discriminate|].
  eapply Qcle_trans; [apply Qcabs_triangle|]. rewrite Qcabs_mul.
  assert (Qcabs t * Qcabs (poly r t) <= 1 * coef_sum r) by (apply Qcmul_le2; try apply Qcabs_nonneg; assumption).
  replace (1 * coef_sum r) with (coef_sum r) in H by ring. qc_lra.
Qed.
Lemma poly_first c t : poly c t - (poly c 0 + t * nth 1 c 0) = t * t * poly (tl (tl c)) t.
Proof. destruct c as [|a [|b r]]; cbn [poly nth tl]; ring. Qed.
Lemma nth_0 c : poly c 0 = nth 0 c 0.
Proof. destruct c; cbn; ring. Qed.

Lemma fdm_h_one : fdm_h <= 1. Proof. discriminate. Qed.

Lemma expands_difference f (dom : Qc -> Prop) t cx cy cz : expands f (t - fdm_h) (t + fdm_h) t cx cy cz ->
  (x <- f (t - fdm_h) ;; y <- f (t + fdm_h) ;; Ok (v3scale_div (v3minus y x) fdm_2h)) = Ok (V3 (every_second cx fdm_h) (every_second cy fdm_h) (every_second cz fdm_h)) /\
  has_velocity f dom t (nth3 1 cx cy cz).
Proof.
  intros H. pose proof fdm_h_pos as P. pose proof fdm_h_one as P1. rewrite fdm_double. set (h := fdm_h) in *. clearbody h. split.
  - rewrite (H (t - h)), (H (t + h)) by qc_lra. cbn [bind]. unfold v3scale_div, v3minus. cbn [vx vy vz].
    replace (t - h - t) with (- h) by ring. replace (t + h - t) with h by ring. rewrite !poly_odd.
    assert (h <> 0) by (intros X; rewrite X in P; discriminate P).
    assert (forall x, (1 + 1) * h * x / ((1 + 1) * h) = x) as E by (intros; field; split; [assumption|discriminate]).
    rewrite !E. reflexivity.
  - exists (V3 (poly cx 0) (poly cy 0) (poly cz 0)). split; [rewrite (H t) by qc_lra; replace (t - t) with 0 by ring; reflexivity|]. intros eps He.
    set (A := coef_sum (tl (tl cx)) + coef_sum (tl (tl cy)) + coef_sum (tl (tl cz)) + 1).
    pose proof (coef_sum_nonneg (tl (tl cx))). pose proof (coef_sum_nonneg (tl (tl cy))). pose proof (coef_sum_nonneg (tl (tl cz))).
    assert (0 < A) as PA by (unfold A; qc_lra). assert (A <> 0) as NA by (intros X; rewrite X in PA; discriminate PA).
    destruct (Qcmin_pos (eps / A) h) as (delta & D0 & D1 & D2); [unfold Qcdiv; apply Qcmul_pos; [assumption|apply Qcinv_pos; assumption]|assumption|].
    exists delta. split; [exact D0|]. intros t' _ Ht. pose proof (proj1 (Qcabs_le _ _) Ht) as [T1 T2].
    eexists. split; [apply H; qc_lra|].
    assert (forall c, coef_sum (tl (tl c)) <= A -> Qcabs (poly c (t' - t) - (poly c 0 + (t' - t) * nth 1 c 0)) <= eps * Qcabs (t' - t)) as K.
    { intros c Hc. rewrite poly_first. replace ((t' - t) * (t' - t) * poly (tl (tl c)) (t' - t)) with ((poly (tl (tl c)) (t' - t) * (t' - t)) * (t' - t)) by ring.
      rewrite !Qcabs_mul. rewrite (Qcmult_comm _ (Qcabs (t' - t))), (Qcmult_comm eps). apply Qcmul_le_l; [apply Qcabs_nonneg|].
      replace eps with (A * (eps / A)) by (field; assumption). apply Qcmul_le2; try apply Qcabs_nonneg.
      - eapply Qcle_trans; [apply poly_bound; qc_lra|exact Hc].
      - eapply Qcle_trans; eassumption. }
    unfold within3, ahead, nth3. cbn [vx vy vz]. repeat split; apply K; unfold A; qc_lra.
Qed.

(** ** surfaces *)
Lemma taylor_u_top s n m u v : good_surf s n m -> unit_surf s ->
  in_surf s n m (u - fdm_h) v -> u + fdm_h < knot (ns_ku s) (n + 1) -> no_knot (ns_ku s) (u - fdm_h) (u + fdm_h) ->
  exists cx cy cz, length cx = S (ns_du s) /\ length cy = S (ns_du s) /\ length cz = S (ns_du s) /\
    expands (fun u' => ns_evaluate s u' v) (u - fdm_h) (u + fdm_h) u cx cy cz /\
    has_velocity (fun u' => ns_evaluate s u' v) (fun u' => in_domain n (ns_du s) (ns_ku s) u') u (nth3 1 cx cy cz) /\
    ns_derivative_u s u v = Ok (V3 (every_second cx fdm_h) (every_second cy fdm_h) (every_second cz fdm_h)).
Proof.
  intros G W [DU DV] HH NK. pose proof G as (_ & _ & _ & _ & VU & VV & _). pose proof fdm_h_pos as P.
  destruct (window (ns_ku s) n (ns_du s) (u - fdm_h) (u + fdm_h) VU DU HH) as (sp & WI); [set (h := fdm_h) in *; clearbody h; qc_lra|exact NK|].
  assert (forall f : vec4 -> Qc, exists c, length c = S (ns_du s) /\ forall u', u - fdm_h <= u' -> u' <= u + fdm_h -> tensor f s n m u' v = poly c (u' - u)) as Q.
  { intros f. set (row := fun i => qsum (fun j => basis_at (ns_kv s) m (ns_dv s) v j * f (cp (ns_cps s) i j)) (S m)).
    destruct (dsum_ispoly (ns_ku s) n (ns_du s) sp row u) as (c & L & E). exists c. split; [exact L|]. intros u' U1 U2. rewrite tensor_u.
    destruct (WI u' U1 U2) as [_ WE]. change (bsum (ns_ku s) n (ns_du s) row u' = poly c (u' - u)). rewrite WE. apply E. }
  destruct (Q wx) as (cx & Lx & Ex). destruct (Q wy) as (cy & Ly & Ey). destruct (Q wz) as (cz & Lz & Ez). exists cx, cy, cz.
  assert (expands (fun u' => ns_evaluate s u' v) (u - fdm_h) (u + fdm_h) u cx cy cz) as X.
  { intros u' U1 U2. destruct (WI u' U1 U2) as [D _]. rewrite (unit_evaluate s n m) by (try assumption; split; assumption).
    rewrite Ex, Ey, Ez by assumption. reflexivity. }
  destruct (expands_difference _ (fun u' => in_domain n (ns_du s) (ns_ku s) u') _ _ _ _ X) as [A B]. auto 10.
Qed.
Lemma taylor_v_top s n m u v : good_surf s n m -> unit_surf s ->
  in_surf s n m u (v - fdm_h) -> v + fdm_h < knot (ns_kv s) (m + 1) -> no_knot (ns_kv s) (v - fdm_h) (v + fdm_h) ->
  exists cx cy cz, length cx = S (ns_dv s) /\ length cy = S (ns_dv s) /\ length cz = S (ns_dv s) /\
    expands (fun v' => ns_evaluate s u v') (v - fdm_h) (v + fdm_h) v cx cy cz /\
    has_velocity (fun v' => ns_evaluate s u v') (fun v' => in_domain m (ns_dv s) (ns_kv s) v') v (nth3 1 cx cy cz) /\
    ns_derivative_v s u v = Ok (V3 (every_second cx fdm_h) (every_second cy fdm_h) (every_second cz fdm_h)).
Proof.
  intros G W [DU DV] HH NK. pose proof G as (_ & _ & _ & _ & VU & VV & _). pose proof fdm_h_pos as P.
  destruct (window (ns_kv s) m (ns_dv s) (v - fdm_h) (v + fdm_h) VV DV HH) as (sp & WI); [set (h := fdm_h) in *; clearbody h; qc_lra|exact NK|].
  assert (forall f : vec4 -> Qc, exists c, length c = S (ns_dv s) /\ forall v', v - fdm_h <= v' -> v' <= v + fdm_h -> tensor f s n m u v' = poly c (v' - v)) as Q.
  { intros f. set (row := fun j => qsum (fun i => basis_at (ns_ku s) n (ns_du s) u i * f (cp (ns_cps s) i j)) (S n)).
    destruct (dsum_ispoly (ns_kv s) m (ns_dv s) sp row v) as (c & L & E). exists c. split; [exact L|]. intros v' U1 U2. rewrite tensor_v.
    destruct (WI v' U1 U2) as [_ WE]. change (bsum (ns_kv s) m (ns_dv s) row v' = poly c (v' - v)). rewrite WE. apply E. }
  destruct (Q wx) as (cx & Lx & Ex). destruct (Q wy) as (cy & Ly & Ey). destruct (Q wz) as (cz & Lz & Ez). exists cx, cy, cz.
  assert (expands (fun v' => ns_evaluate s u v') (v - fdm_h) (v + fdm_h) v cx cy cz) as X.
  { intros v' U1 U2. destruct (WI v' U1 U2) as [D _]. rewrite (unit_evaluate s n m) by (try assumption; split; assumption).
    rewrite Ex, Ey, Ez by assumption. reflexivity. }
  destruct (expands_difference _ (fun v' => in_domain m (ns_dv s) (ns_kv s) v') _ _ _ _ X) as [A B]. auto 10.
Qed.

(** ** curves *)
Lemma taylor_curve_top c n t : good_curve c n -> unit_weights (nc_cps c) ->
  in_curve c n (t - fdm_h) -> t + fdm_h < knot (nc_knots c) (n + 1) -> no_knot (nc_knots c) (t - fdm_h) (t + fdm_h) ->
  exists cx cy cz, length cx = S (nc_degree c) /\ length cy = S (nc_degree c) /\ length cz = S (nc_degree c) /\
    expands (evaluate c) (t - fdm_h) (t + fdm_h) t cx cy cz /\
    has_velocity (evaluate c) (in_curve c n) t (nth3 1 cx cy cz) /\
    nc_derivative_fdm c t = Ok (V3 (every_second cx fdm_h) (every_second cy fdm_h) (every_second cz fdm_h)) /\
    exists k, Qcabs (k - (1 + 1)) <= qc 1 1000000000000 /\
      nc_derivatives_fdm c t = Ok (nth3 0 cx cy cz, V3 (every_second cx fdm_h) (every_second cy fdm_h) (every_second cz fdm_h),
        V3 (k * every_second (tl cx) fdm_h) (k * every_second (tl cy) fdm_h) (k * every_second (tl cz) fdm_h)).
Proof.
  intros G W DU HH NK. pose proof G as (_ & VU & _). pose proof fdm_h_pos as P.
  destruct (window (nc_knots c) n (nc_degree c) (t - fdm_h) (t + fdm_h) VU DU HH) as (sp & WI); [set (h := fdm_h) in *; clearbody h; qc_lra|exact NK|].
  assert (forall f : nat -> Qc, exists a, length a = S (nc_degree c) /\ forall u', t - fdm_h <= u' -> u' <= t + fdm_h -> phi (nc_knots c) n (nc_degree c) 0 f u' = poly a (u' - t)) as Q.
  { intros f. destruct (dsum_ispoly (nc_knots c) n (nc_degree c) sp f t) as (a & L & E). exists a. split; [exact L|]. intros u' U1 U2.
    destruct (WI u' U1 U2) as [D WE]. rewrite <- bsum_phi by assumption. rewrite WE. apply E. }
  destruct (Q (ProofDerivative.coord wx (nc_cps c))) as (cx & Lx & Ex). destruct (Q (ProofDerivative.coord wy (nc_cps c))) as (cy & Ly & Ey). destruct (Q (ProofDerivative.coord wz (nc_cps c))) as (cz & Lz & Ez). exists cx, cy, cz.
  assert (expands (evaluate c) (t - fdm_h) (t + fdm_h) t cx cy cz) as X.
  { intros u' U1 U2. destruct (WI u' U1 U2) as [D _]. rewrite (evaluate_phi c n) by assumption. unfold point_k. rewrite Ex, Ey, Ez by assumption. reflexivity. }
  destruct (expands_difference _ (in_curve c n) _ _ _ _ X) as [A B]. do 5 (split; [assumption|]). split; [exact A|].
  exists ((1 + 1) * (fdm_h * fdm_h) / fdm_hh). split; [exact fdm_ratio|].
  unfold nc_derivatives_fdm. pose proof (X t ltac:(set (h := fdm_h) in *; clearbody h; qc_lra) ltac:(set (h := fdm_h) in *; clearbody h; qc_lra)) as X0.
  pose proof (X (t - fdm_h) ltac:(set (h := fdm_h) in *; clearbody h; qc_lra) ltac:(set (h := fdm_h) in *; clearbody h; qc_lra)) as X1.
  pose proof (X (t + fdm_h) ltac:(set (h := fdm_h) in *; clearbody h; qc_lra) ltac:(set (h := fdm_h) in *; clearbody h; qc_lra)) as X2.
  rewrite X1, X2 in A. cbn [bind] in A. rewrite X0, X1, X2. cbn [bind]. injection A as A1 A2 A3.
  unfold v3scale_div, v3minus, v3plus, nth3 in *. cbn [vx vy vz] in *. rewrite A1, A2, A3.
  replace (t - fdm_h - t) with (- fdm_h) by ring. replace (t + fdm_h - t) with fdm_h by ring. replace (t - t) with 0 by ring.
  assert (forall a, (poly a fdm_h - (poly a 0 + poly a 0) + poly a (- fdm_h)) / fdm_hh = (1 + 1) * (fdm_h * fdm_h) / fdm_hh * every_second (tl a) fdm_h) as E2.
  { intros a. replace (poly a fdm_h - (poly a 0 + poly a 0) + poly a (- fdm_h)) with (poly a fdm_h + poly a (- fdm_h) - (1 + 1) * poly a 0) by ring.
    rewrite poly_even. unfold Qcdiv. ring. }
  rewrite !E2. rewrite !nth_0. reflexivity.
Qed.
