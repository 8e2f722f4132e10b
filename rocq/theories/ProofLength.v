(** Length of a curve. *)
From Coq Require Import List ZArith QArith Qcanon Bool Lia Lqa Field.
From Verif Require Import Base BaseFacts LoopFacts ModelVec ModelAabb ModelNurbs ModelNumeric ModelDerivative ModelJoin
  SpecNurbs SpecCurve SpecDerivative SpecJoin ProofBspline ProofNurbs ProofMinimize ProofSmooth ProofCurve ProofDerivative ProofDerivativeTop ProofNurbsTop SpecNumeric ProofIntegrate.
Import ListNotations.
Open Scope Qc_scope.

Lemma simpson_m_ok f g A B : (forall x, between A B x -> f x = Ok (g x)) -> forall d a b fa fb fm S tol acc, between A B a -> between A B b ->
  simpson_m d f a b fa fb fm S tol (q_result acc, q_error acc) =
  Ok (q_result (adaptive_simpson d g a b fa fb fm S tol acc), q_error (adaptive_simpson d g a b fa fb fm S tol acc)).
Proof.
  intros H. induction d as [|d IH]; intros a b fa fb fm S tol acc Ha Hb.
  - cbn [simpson_m adaptive_simpson].
    assert (between A B (qc 1 2 * (a + b))) as Hm by (eapply between_sub; [exact Ha|exact Hb|apply between_mid]).
    rewrite (H (qc 1 2 * (a + qc 1 2 * (a + b)))) by (eapply between_sub; [exact Ha|exact Hm|apply between_mid]). cbn [bind].
    rewrite (H (qc 1 2 * (qc 1 2 * (a + b) + b))) by (eapply between_sub; [exact Hm|exact Hb|apply between_mid]). cbn [bind]. reflexivity.
  - cbn [simpson_m adaptive_simpson].
    assert (between A B (qc 1 2 * (a + b))) as Hm by (eapply between_sub; [exact Ha|exact Hb|apply between_mid]).
    rewrite (H (qc 1 2 * (a + qc 1 2 * (a + b)))) by (eapply between_sub; [exact Ha|exact Hm|apply between_mid]). cbn [bind].
    rewrite (H (qc 1 2 * (qc 1 2 * (a + b) + b))) by (eapply between_sub; [exact Hm|exact Hb|apply between_mid]). cbn [bind].
    cbn [q_result q_error fst snd q_calls]. destruct (Qcabs _ <? tol); [reflexivity|].
    set (acc1 := Quad (q_result acc) (q_error acc) (q_calls acc ++ [_; _])).
    change (q_result acc, q_error acc) with (q_result acc1, q_error acc1). rewrite IH by assumption. cbn [bind]. apply IH; assumption.
Qed.

Lemma integrate_m_ok f g t0 t1 tol d : (forall x, between t0 t1 x -> f x = Ok (g x)) -> integrate_m f t0 t1 tol d = Ok (q_result (integrate g t0 t1 tol d)).
Proof.
  intros H. unfold integrate_m, integrate. rewrite (H t0) by apply between_l. cbn [bind]. rewrite (H t1) by apply between_r. cbn [bind].
  rewrite (H (qc 1 2 * (t0 + t1))) by apply between_mid. cbn [bind].
  set (acc := Quad 0 0 [t0; t1; qc 1 2 * (t0 + t1)]). change (0, 0) with (q_result acc, q_error acc).
  rewrite (simpson_m_ok f g t0 t1 H) by (first [apply between_l | apply between_r]). reflexivity.
Qed.

Lemma has_velocity_sub f (dom1 dom2 : Qc -> Prop) t v : (forall x, dom2 x -> dom1 x) -> has_velocity f dom1 t v -> has_velocity f dom2 t v.
Proof.
  intros S (p & E & H). exists p. split; [exact E|]. intros eps He. destruct (H eps He) as (d & Hd & K). exists d. split; [exact Hd|]. intros t' D. apply K, S, D.
Qed.

Lemma derivative_velocity c n t : good_curve c n -> (1 <= nc_degree c <= 3)%nat -> unit_weights (nc_cps c) -> in_curve c n t ->
  exists v, nc_derivative c t = Ok v /\ velocity_at c n t v.
Proof.
  intros G Hp W D. destruct (derivative_top c n t G Hp W D) as (d & E & A & B). exists d. split; [exact E|]. unfold velocity_at.
  destruct (Qclt_le_dec t (knot (nc_knots c) (n + 1))) as [L|L].
  - apply (has_velocity_sub _ _ _ _ _ (fun x H => conj (proj1 H) (match proj2 H with or_introl a => a | or_intror b => False_ind _ (Qclt_not_le _ _ L b) end)) A).
  - apply (has_velocity_sub _ (in_curve c n)); [intros x [H _]; exact H|]. apply B. right. left. exact L.
Qed.

Lemma length_bounds_top length c n t0 t1 tol lo hi : good_curve c n -> (1 <= nc_degree c <= 3)%nat -> unit_weights (nc_cps c) ->
  in_curve c n t0 -> in_curve c n t1 -> t0 <= t1 ->
  (forall t v, t0 <= t -> t <= t1 -> velocity_at c n t v -> lo <= length v /\ length v <= hi) ->
  exists l, nc_length length c t0 t1 tol = Ok l /\ lo * (t1 - t0) <= l /\ l <= hi * (t1 - t0).
Proof.
  intros G Hp W D0 D1 L H. set (g := fun t => match nc_speed length c t with Ok x => x | _ => 0 end).
  assert (forall t, t0 <= t -> t <= t1 -> nc_speed length c t = Ok (g t) /\ lo <= g t /\ g t <= hi) as K.
  { intros t A B. assert (in_curve c n t) as D by (destruct D0, D1; split; qc_lra).
    destruct (derivative_velocity c n t G Hp W D) as (v & E & V). unfold g, nc_speed. rewrite E. cbn [bind]. split; [reflexivity|]. apply (H t v A B V). }
  exists (q_result (integrate g t0 t1 tol 20)). split.
  - unfold nc_length. apply integrate_m_ok. intros x [[A B]|[A B]]; apply K; qc_lra.
  - apply bounds_top; [assumption|]. intros x A B. apply K; assumption.
Qed.

(** ** constant speed *)
Lemma integrate_const f k t0 t1 tol d : (forall x, between t0 t1 x -> f x = Ok k) -> integrate_m f t0 t1 tol d = Ok (k * (t1 - t0)).
Proof. intros H. rewrite (integrate_m_ok f (fun _ => k)) by exact H. rewrite const_integral. reflexivity. Qed.

Lemma newton_m_const f k t0 I guess tol d m : lit_1em10 <= Qcabs k -> (1 <= m)%nat ->
  (forall x, between t0 guess x \/ between t0 (t0 + I / k) x -> f x = Ok k) -> t1_newton_m m t0 I f tol d guess = Ok (Some (t0 + I / k)).
Proof.
  intros HK Hm H. assert (k <> 0) as NZ. { intros ->. revert HK. vm_compute. intros HK. apply HK. reflexivity. }
  assert ((Qcabs k <? lit_1em10) = false) as HB by (qcb; assumption).
  assert (forall t, t - (k * (t - t0) - I) / k = t0 + I / k) as ST by (intros t; field; assumption).
  assert (forall it t, (forall x, between t0 t x -> f x = Ok k) -> t1_newton_m (S it) t0 I f tol d t =
     if Qcabs (t0 + I / k - t) <? tol then Ok (Some (t0 + I / k)) else t1_newton_m it t0 I f tol d (t0 + I / k)) as STEP.
  { intros it t Ht. cbn [t1_newton_m]. rewrite (integrate_const f k t0 t tol d Ht). cbn [bind]. rewrite (Ht t) by apply between_r. cbn [bind]. rewrite HB, ST. reflexivity. }
  destruct m as [|m]; [lia|]. rewrite STEP by (intros; apply H; left; assumption). destruct (_ <? tol); [reflexivity|].
  clear Hm. induction m as [|m IH]; [reflexivity|]. rewrite STEP by (intros; apply H; right; assumption). destruct (_ <? tol); [reflexivity|]. exact IH.
Qed.

Lemma between_in a b x lo hi : between a b x -> lo <= a -> a <= hi -> lo <= b -> b <= hi -> lo <= x /\ x <= hi.
Proof. intros [[A B]|[A B]] H1 H2 H3 H4; split; qc_lra. Qed.

Lemma length_at_top length c n l t0 guess tol s : good_curve c n -> (1 <= nc_degree c <= 3)%nat -> unit_weights (nc_cps c) ->
  in_curve c n t0 -> in_curve c n guess -> in_curve c n (t0 + l / s) -> lit_1em10 <= s ->
  (forall t v, in_curve c n t -> velocity_at c n t v -> length v = s) ->
  nc_length_at length c l t0 guess tol = Ok (Some (t0 + l / s)) /\ nc_length length c t0 (t0 + l / s) tol = Ok l.
Proof.
  intros G Hp W D0 Dg D1 Hs H.
  assert (forall x, in_curve c n x -> nc_speed length c x = Ok s) as K.
  { intros x D. destruct (derivative_velocity c n x G Hp W D) as (v & E & V). unfold nc_speed. rewrite E. cbn [bind]. rewrite (H x v D V). reflexivity. }
  assert (0 < s) as Sp by (apply Qclt_le_trans with lit_1em10; [reflexivity|assumption]).
  assert (s <> 0) as NZ by (intros E; rewrite E in Sp; discriminate Sp).
  split.
  - unfold nc_length_at. apply newton_m_const; [|lia|].
    + replace (Qcabs s) with s; [assumption|]. unfold Qcabs. destruct (Qcltb_spec s 0) as [F|F]; [exfalso; qc_lra|reflexivity].
    + intros x [B|B]; apply K; destruct D0, Dg, D1; destruct (between_in _ _ _ (knot (nc_knots c) (nc_degree c)) (knot (nc_knots c) (n + 1)) B); auto; split; assumption.
  - unfold nc_length. rewrite (integrate_const _ s).
    + f_equal. field. assumption.
    + intros x B. apply K. destruct D0, D1. destruct (between_in _ _ _ (knot (nc_knots c) (nc_degree c)) (knot (nc_knots c) (n + 1)) B); auto; split; assumption.
Qed.

(** the overloads that start at the beginning of the interval *)
Lemma length_to_top length c n t tol lo hi : good_curve c n -> (1 <= nc_degree c <= 3)%nat -> unit_weights (nc_cps c) ->
  in_curve c n (fst (nc_interval c)) -> in_curve c n t -> fst (nc_interval c) <= t ->
  (forall x v, fst (nc_interval c) <= x -> x <= t -> velocity_at c n x v -> lo <= length v /\ length v <= hi) ->
  exists l, nc_length_to length c t tol = Ok l /\ lo * (t - fst (nc_interval c)) <= l /\ l <= hi * (t - fst (nc_interval c)).
Proof. intros. unfold nc_length_to. eapply length_bounds_top; eassumption. Qed.
Lemma length_all_top length c n lo hi : good_curve c n -> (1 <= nc_degree c <= 3)%nat -> unit_weights (nc_cps c) ->
  in_curve c n (fst (nc_interval c)) -> in_curve c n (snd (nc_interval c)) -> fst (nc_interval c) <= snd (nc_interval c) ->
  (forall x v, fst (nc_interval c) <= x -> x <= snd (nc_interval c) -> velocity_at c n x v -> lo <= length v /\ length v <= hi) ->
  exists l, nc_length_all length c = Ok l /\ lo * (snd (nc_interval c) - fst (nc_interval c)) <= l /\ l <= hi * (snd (nc_interval c) - fst (nc_interval c)).
Proof. intros. unfold nc_length_all. eapply length_bounds_top; eassumption. Qed.
Lemma length_at_all_top length c n l tol s : good_curve c n -> (1 <= nc_degree c <= 3)%nat -> unit_weights (nc_cps c) ->
  in_curve c n (fst (nc_interval c)) -> in_curve c n (snd (nc_interval c)) -> in_curve c n (fst (nc_interval c) + l / s) -> lit_1em10 <= s ->
  (forall t v, in_curve c n t -> velocity_at c n t v -> length v = s) ->
  nc_length_at_all length c l tol = Ok (Some (fst (nc_interval c) + l / s)) /\ nc_length_to length c (fst (nc_interval c) + l / s) tol = Ok l.
Proof.
  intros G Hp W D0 D1 D2 Hs H. unfold nc_length_at_all, nc_length_to. apply (length_at_top length c n l); try assumption.
  destruct D0, D1. assert (qc 1 2 + qc 1 2 = 1) as HH by (apply Qc_is_canon; reflexivity).
  split.
  - apply Qcle_trans with ((knot (nc_knots c) (nc_degree c) + knot (nc_knots c) (nc_degree c)) * qc 1 2).
    + replace ((knot (nc_knots c) (nc_degree c) + knot (nc_knots c) (nc_degree c)) * qc 1 2) with (knot (nc_knots c) (nc_degree c) * (qc 1 2 + qc 1 2)) by ring. rewrite HH. rewrite Qcmult_1_r; apply Qcle_refl.
    + apply Qcmult_le_compat_r; [|discriminate]. apply Qcplus_le_compat; assumption.
  - apply Qcle_trans with ((knot (nc_knots c) (n + 1) + knot (nc_knots c) (n + 1)) * qc 1 2).
    + apply Qcmult_le_compat_r; [|discriminate]. apply Qcplus_le_compat; assumption.
    + replace ((knot (nc_knots c) (n + 1) + knot (nc_knots c) (n + 1)) * qc 1 2) with (knot (nc_knots c) (n + 1) * (qc 1 2 + qc 1 2)) by ring. rewrite HH. rewrite Qcmult_1_r; apply Qcle_refl.
Qed.

(** zero at the five samples: the estimate is accepted at once *)
Lemma integrate_zero f t0 t1 tol d : 0 < tol -> f t0 = Ok 0 -> f t1 = Ok 0 -> f (qc 1 2 * (t0 + t1)) = Ok 0 ->
  f (qc 1 2 * (t0 + qc 1 2 * (t0 + t1))) = Ok 0 -> f (qc 1 2 * (qc 1 2 * (t0 + t1) + t1)) = Ok 0 -> integrate_m f t0 t1 tol d = Ok 0.
Proof.
  intros HT H0 H1 H2 H3 H4. unfold integrate_m. rewrite H0. cbn [bind]. rewrite H1. cbn [bind]. rewrite H2. cbn [bind].
  assert (forall h : Qc, h * (0 + qc 4 1 * 0 + 0) = 0) as Z by (intros; ring). rewrite Z.
  assert (simpson_m d f t0 t1 0 0 0 0 tol (0, 0) = Ok (0, 0)) as ->; [|reflexivity].
  destruct d as [|d]; cbn [simpson_m]; rewrite H3; cbn [bind]; rewrite H4; cbn [bind]; rewrite !Z; cbn [fst snd];
    replace ((0 + 0 - 0) / qc 15 1) with 0 by (unfold Qcdiv; ring); rewrite Qcabs_0.
  - reflexivity.
  - destruct (Qcltb_spec 0 tol) as [L|L]; [reflexivity|exfalso; qc_lra].
Qed.

(** ** a straight segment *)
Lemma segment_derivative (a b : vec3) : exists c, nc_make3 [a; b] 1 false = Ok c /\ nc_interval c = (0, 1) /\
  (forall x, 0 <= x -> x <= 1 -> in_curve c 1 x) /\ forall x, in_curve c 1 x -> nc_derivative c x = Ok (v3sub b a).
Proof.
  destruct (make3_top [a; b] 1 ltac:(cbn; lia) ltac:(lia)) as (c & n & E & Ln & G & Ec & Ed & W & _ & CL & I & _ & K0 & K1 & _).
  cbn in Ln. injection Ln as <-. change (Qc_of_nat (List.length [a; b] - 1)) with 1 in *. exists c. split; [exact E|]. split; [exact I|]. split.
  { intros x H0 H1. unfold in_curve. rewrite Ed. split; [rewrite K0; assumption|rewrite K1; assumption]. }
  intros x D. rewrite (derivative_point c 1 x G ltac:(lia) D). f_equal.
  pose proof G as (_ & V & _). unfold in_curve in D. rewrite Ed in V, D.
  assert (is_span (knot (nc_knots c)) 1 1 x) as IS.
  { split; [lia|]. split; [destruct D as [D _]; exact D|]. destruct (Qclt_le_dec x (knot (nc_knots c) 2)) as [L|L]; [left; exact L|right]. split; [reflexivity|]. apply Qcle_antisym; [destruct D as [_ D]; exact D|exact L]. }
  assert (forall f, phi (nc_knots c) 1 1 1 f x = f 1%nat - f 0%nat) as P.
  { intros f. rewrite (phi_span _ _ _ _ _ _ 1 V D IS). unfold dsum. cbn [qsum]. rewrite !bspd_S. cbn [bspd bsp Nat.eqb Nat.add].
    cbn [Nat.add] in K1. rewrite K0, K1. change (Qc_of_nat 1) with 1. unfold Qcdiv. rewrite !Qcmult_0_l. replace (/ (1 - 0)) with 1 by (apply Qc_is_canon; reflexivity). ring. }
  unfold point_k. rewrite Ed, !P. unfold coord. rewrite Ec. reflexivity.
Qed.

Lemma segment_top length (a b : vec3) : exists c, nc_make3 [a; b] 1 false = Ok c /\ nc_interval c = (0, 1) /\ nc_length_all length c = Ok (length (v3sub b a)).
Proof.
  destruct (segment_derivative a b) as (c & E & I & IN & Dv). exists c. split; [exact E|]. split; [exact I|].
  unfold nc_length_all. rewrite I. cbn [fst snd]. unfold nc_length. rewrite (integrate_const _ (length (v3sub b a))).
  { f_equal. ring. }
  intros x B. assert (0 <= x /\ x <= 1) as [X0 X1] by (apply (between_in _ _ _ _ _ B); qc_lra).
  unfold nc_speed. rewrite (Dv x (IN x X0 X1)). reflexivity.
Qed.

(** ** there is only one velocity *)
Lemma Qcabs_pos' (x : Qc) : x <> 0 -> 0 < Qcabs x.
Proof.
  intros NE. destruct (Qcabs_cases x) as [[L ->]|[L ->]]; [|qc_lra]. destruct (Qcle_lt_or_eq _ _ L) as [L'|L']; [exact L'|]. symmetry in L'. contradiction.
Qed.
Lemma tiny_zero (x : Qc) : (forall eps, 0 < eps -> Qcabs x <= eps) -> x = 0.
Proof.
  intros H. destruct (Qc_eq_dec x 0) as [E|NE]; [exact E|exfalso].
  assert (0 < Qcabs x) as P by (apply Qcabs_pos'; assumption).
  specialize (H (Qcabs x * qc 1 2)). assert (0 < Qcabs x * qc 1 2) as P2 by (apply Qcmul_pos; [assumption|reflexivity]). specialize (H P2).
  set (y := Qcabs x) in *. clearbody y. qc_lra.
Qed.
Lemma Qcabs_tri a b : Qcabs (a - b) <= Qcabs a + Qcabs b.
Proof. destruct (Qcabs_cases a) as [[? ->]|[? ->]]; destruct (Qcabs_cases b) as [[? ->]|[? ->]]; destruct (Qcabs_cases (a - b)) as [[? ->]|[? ->]]; qc_lra. Qed.
Lemma Qcabs_mul a b : Qcabs (a * b) = Qcabs a * Qcabs b.
Proof.
  destruct (Qcabs_cases a) as [[A EA]|[A EA]]; destruct (Qcabs_cases b) as [[B EB]|[B EB]]; destruct (Qcabs_cases (a * b)) as [[C EC]|[C EC]]; rewrite EA, EB, EC; try ring.
  - exfalso. assert (0 <= a * b) by (apply Qcmul_nonneg; assumption). qc_lra.
  - replace a with 0; [ring|]. destruct (Qcle_lt_or_eq _ _ A) as [L|L]; [exfalso|exact L]. assert (0 < a * (- b)) by (apply Qcmul_pos; qc_lra). replace (a * - b) with (- (a * b)) in H by ring. qc_lra.
  - replace b with 0; [ring|]. destruct (Qcle_lt_or_eq _ _ B) as [L|L]; [exfalso|exact L]. assert (0 < (- a) * b) by (apply Qcmul_pos; qc_lra). replace (- a * b) with (- (a * b)) in H by ring. qc_lra.
  - exfalso. assert (0 < (- a) * (- b)) by (apply Qcmul_pos; qc_lra). replace (- a * - b) with (a * b) in H by ring. qc_lra.
Qed.

Lemma velocity_unique f (dom : Qc -> Prop) t v w : has_velocity f dom t v -> has_velocity f dom t w ->
  (forall d, 0 < d -> exists t', dom t' /\ t' <> t /\ Qcabs (t' - t) <= d) -> v = w.
Proof.
  intros (p & Ep & Hv) (q & Eq & Hw) N. rewrite Ep in Eq. injection Eq as <-.
  assert (forall x y, (forall eps, 0 < eps -> Qcabs (x - y) <= eps) -> x = y) as K.
  { intros x y H. assert (x - y = 0) as E by (apply tiny_zero; exact H). replace x with (x - y + y) by ring. rewrite E. ring. }
  assert (forall eps, 0 < eps -> exists h, h <> 0 /\ exists p', within3 p' (ahead p h v) (eps * Qcabs h) /\ within3 p' (ahead p h w) (eps * Qcabs h)) as M.
  { intros eps He. destruct (Hv eps He) as (d1 & P1 & H1). destruct (Hw eps He) as (d2 & P2 & H2).
    destruct (Qcmin_pos d1 d2 P1 P2) as (d & Pd & L1 & L2). destruct (N d Pd) as (t' & D & NE & L).
    destruct (H1 t' D) as (p1 & E1 & W1); [qc_lra|]. destruct (H2 t' D) as (p2 & E2 & W2); [qc_lra|]. rewrite E1 in E2. injection E2 as <-.
    exists (t' - t). split; [intros F; apply NE; replace t' with (t' - t + t) by ring; rewrite F; ring|]. exists p1. auto. }
  assert (forall x a b h r eps, h <> 0 -> Qcabs (x - (r + h * a)) <= eps * Qcabs h -> Qcabs (x - (r + h * b)) <= eps * Qcabs h -> Qcabs (a - b) <= eps + eps) as B.
  { intros x a b h r eps NZ A1 A2. assert (0 < Qcabs h) as P by (apply Qcabs_pos'; assumption).
    pose proof (Qcabs_tri (x - (r + h * b)) (x - (r + h * a))) as T.
    replace (x - (r + h * b) - (x - (r + h * a))) with (h * (a - b)) in T by ring. rewrite Qcabs_mul in T.
    assert (Qcabs h * Qcabs (a - b) <= Qcabs h * (eps + eps)) as Q. { replace (Qcabs h * (eps + eps)) with (eps * Qcabs h + eps * Qcabs h) by ring. set (e := eps * Qcabs h) in *. set (z := Qcabs h * Qcabs (a - b)) in *. clearbody e z. qc_lra. }
    destruct (Qclt_le_dec (eps + eps) (Qcabs (a - b))) as [L|L]; [exfalso|exact L].
    assert (0 < Qcabs h * (Qcabs (a - b) - (eps + eps))) as F by (apply Qcmul_pos; qc_lra).
    replace (Qcabs h * (Qcabs (a - b) - (eps + eps))) with (Qcabs h * Qcabs (a - b) - Qcabs h * (eps + eps)) in F by ring. qc_lra. }
  destruct v as [v1 v2 v3], w as [w1 w2 w3].
  f_equal; apply K; intros eps He; (destruct (M (eps * qc 1 2)) as (h & NZ & p' & (A1 & A2 & A3) & (B1 & B2 & B3)); [apply Qcmul_pos; [assumption|reflexivity]|]);
    unfold ahead in *; cbn [vx vy vz] in *; replace eps with (eps * qc 1 2 + eps * qc 1 2) by (replace (eps * qc 1 2 + eps * qc 1 2) with (eps * (qc 1 2 + qc 1 2)) by ring; replace (qc 1 2 + qc 1 2) with 1 by (apply Qc_is_canon; reflexivity); ring).
  - exact (B _ _ _ _ _ _ NZ A1 B1).
  - exact (B _ _ _ _ _ _ NZ A2 B2).
  - exact (B _ _ _ _ _ _ NZ A3 B3).
Qed.

Lemma velocity_derivative c n t v : good_curve c n -> (1 <= nc_degree c <= 3)%nat -> unit_weights (nc_cps c) -> in_curve c n t ->
  velocity_at c n t v -> nc_derivative c t = Ok v.
Proof.
  intros G Hp W D V. destruct (derivative_velocity c n t G Hp W D) as (w & E & Vw). rewrite E. f_equal.
  apply (velocity_unique _ _ _ _ _ Vw V). intros d Hd. pose proof G as (_ & (Hpn & HL & HS & HN) & _). pose proof (sorted_mono _ HS) as M.
  destruct D as [D1 D2].
  destruct (Qclt_le_dec t (knot (nc_knots c) (n + 1))) as [L|L].
  - destruct (Qcmin_pos d (knot (nc_knots c) (n + 1) - t) Hd ltac:(qc_lra)) as (h & Hh & L1 & L2). exists (t + h).
    split; [split; [split; qc_lra|left; qc_lra]|]. split; [intros F; assert (h = 0) as Z by (replace h with (t + h - t) by ring; rewrite F; ring); rewrite Z in Hh; discriminate Hh|].
    replace (t + h - t) with h by ring. destruct (Qcabs_cases h) as [[? ->]|[? ->]]; qc_lra.
  - assert (knot (nc_knots c) (nc_degree c) < knot (nc_knots c) (n + 1)) as HW. { assert (knot (nc_knots c) (nc_degree c) <= knot (nc_knots c) n) by (apply M; lia). qc_lra. }
    destruct (Qcmin_pos d (t - knot (nc_knots c) (nc_degree c)) Hd ltac:(qc_lra)) as (h & Hh & L1 & L2). exists (t - h).
    split; [split; [split; qc_lra|right; exact L]|]. split; [intros F; assert (h = 0) as Z by (replace h with (t - (t - h)) by ring; rewrite F; ring); rewrite Z in Hh; discriminate Hh|].
    replace (t - h - t) with (- h) by ring. destruct (Qcabs_cases (- h)) as [[? ->]|[? ->]]; qc_lra.
Qed.
