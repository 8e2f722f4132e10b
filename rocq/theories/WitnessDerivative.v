(** Counterexamples and concrete cases for the derivative properties. *)
From Coq Require Import List ZArith QArith Qcanon Lia Bool.
From Verif Require Import Base BaseFacts ModelVec ModelAabb ModelNurbs ModelDerivative SpecAabb SpecNurbs SpecCurve SpecDerivative
  ProofBspline ProofNurbs ProofCurve ProofMinimize ProofDecompose ProofNurbsMisc ProofNurbsTop ProofSmooth ProofDerivative ProofContinuity ProofDerivativeTop ProofHodograph WitnessNurbs.
Import ListNotations.
Open Scope Qc_scope.

(** ** knots of the constructor *)
Lemma mult_nodup U t : NoDup U -> (multiplicity U t <= 1)%nat.
Proof.
  intros H. unfold multiplicity. induction H as [|x l N D IH]; [cbn; lia|]. cbn [filter]. destruct (Qceqb t x) eqn:E; [|assumption].
  qcb. subst x. change (length (t :: filter (Qceqb t) l)) with (S (multiplicity l t)). rewrite mult_not by assumption. lia.
Qed.
Lemma gen_inner n p U : (p <= n)%nat -> gen_knots (S n) p = Ok U -> inner_multiplicity n p U 1.
Proof.
  intros H E t L1 L2. destruct (gen_knots_spec n p H) as (U' & E' & _ & _ & _ & K0 & K1 & _). rewrite E in E'. injection E' as <-.
  rewrite K0 in L1. rewrite K1 in L2. revert E. unfold gen_knots. destruct (Nat.ltb_spec (S n) p); [lia|]. intros Q.
  remember (S n - p)%nat as k eqn:Ek. injection Q as <-. rewrite !mult_app. rewrite (mult_not (repeat 0 _)), (mult_not (repeat (Qc_of_nat _) _)).
  - assert (multiplicity (map Qc_of_nat (seq 1 k)) t <= 1)%nat; [|lia]. apply mult_nodup.
    apply FinFun.Injective_map_NoDup; [|apply seq_NoDup]. intros a b Q. destruct (Nat.lt_trichotomy a b) as [X|[X|X]]; [|assumption|];
      apply Qc_of_nat_lt in X; rewrite Q in X; exfalso; exact (Qclt_not_le _ _ X (Qcle_refl _)).
  - intros Q. apply repeat_spec in Q. rewrite Q in L2. exact (Qclt_not_le _ _ L2 (Qcle_refl _)).
  - intros Q. apply repeat_spec in Q. rewrite Q in L1. exact (Qclt_not_le _ _ L1 (Qcle_refl _)).
Qed.
Lemma inner_le n p U m m' : (m <= m')%nat -> inner_multiplicity n p U m -> inner_multiplicity n p U m'.
Proof. intros L H t A B. specialize (H t A B). lia. Qed.

Lemma made_inner pts p c n : (p < length pts)%nat -> nc_make3 pts p false = Ok c -> length pts = S n -> inner_multiplicity n p (nc_knots c) 1.
Proof.
  intros H E L. destruct (make_unit pts p H) as (c' & n' & U & E' & L' & G & _ & _ & K & _). rewrite E in E'. injection E' as <-.
  assert (n' = n) as -> by lia. rewrite K. apply gen_inner; [lia|exact G].
Qed.
Lemma made_continuous pts p c n : (1 <= p < length pts)%nat -> (p <= 8)%nat -> nc_make3 pts p false = Ok c -> length pts = S n ->
  lipschitz (evaluate c) (in_curve c n).
Proof.
  intros H H8 E L. pose proof (made_inner pts p c n ltac:(lia) E L) as IM.
  destruct (make3_top pts p ltac:(lia) H8) as (c' & n' & E' & L' & G & _ & D & UW & _). rewrite E in E'. injection E' as <-. assert (n' = n) as -> by lia.
  apply continuous_top; [assumption|apply unit_positive; assumption|]. rewrite D. eapply inner_le; [|exact IM]. lia.
Qed.

(** ** a rational line: 4t / (1 + t) *)
Lemma rat_good : good_curve rat_curve 1. Proof. apply good_b_ok. vm_compute. reflexivity. Qed.
Lemma rat_valid : valid_knots 1 1 (nc_knots rat_curve). Proof. exact (proj1 (proj2 rat_good)). Qed.
Lemma rat_knot i : (i < 4)%nat -> knot (nc_knots rat_curve) i = if Nat.leb 2 i then 1 else 0.
Proof. destruct i as [|[|[|[|]]]]; intros; try lia; apply Qc_is_canon; vm_compute; reflexivity. Qed.
Lemma rat_cps_eq : nc_cps rat_curve = rat_cps. Proof. vm_compute. reflexivity. Qed.
Lemma rat_domain t : in_curve rat_curve 1 t <-> 0 <= t /\ t <= 1.
Proof. unfold in_curve, in_domain. change (nc_degree rat_curve) with 1%nat. rewrite !rat_knot by lia. cbn [Nat.leb Nat.add]. tauto. Qed.
Lemma rat_span t : in_curve rat_curve 1 t -> is_span (knot (nc_knots rat_curve)) 1 1 t.
Proof.
  intros D. apply rat_domain in D. destruct D as [A B]. unfold is_span. rewrite !rat_knot by lia. cbn [Nat.leb]. split; [lia|]. split; [assumption|].
  destruct (Qc_eq_dec t 1) as [->|N]; [right; auto|left]. apply Qcnot_le_lt. intros L. apply N. apply Qcle_antisym; assumption.
Qed.
Lemma rat_evaluate t : in_curve rat_curve 1 t -> evaluate rat_curve t = Ok (V3 (qc 4 1 * t / (1 + t)) 0 0).
Proof.
  intros D. pose proof (rat_span t D) as I. rewrite (evaluate_positive rat_curve 1 t eq_refl rat_valid ltac:(vm_compute; lia) D rat_positive).
  assert (1 + t <> 0) as N. { apply rat_domain in D. destruct D as [D _]. intros E. assert (0 < 1 + t) as L by qc_lra. rewrite E in L. discriminate L. }
  f_equal. unfold rational_point, weighted_at, weight_at. cbn [qsum]. change (nc_degree rat_curve) with 1%nat.
  rewrite !(basis_at_bsp _ _ _ _ _ _ rat_valid D I). cbn [bsp Nat.eqb Nat.add]. rewrite !rat_knot by lia. cbn [Nat.leb].
  rewrite rat_cps_eq. unfold rat_cps. cbn [nth ww wx wy wz].
  assert (qc 2 1 = 1 + 1) as -> by (apply Qc_is_canon; vm_compute; reflexivity). assert (qc 4 1 = 1 + 1 + 1 + 1) as -> by (apply Qc_is_canon; vm_compute; reflexivity).
  unfold Qcdiv. replace (/ (1 - 0)) with 1 by (apply Qc_is_canon; vm_compute; reflexivity).
  match goal with |- V3 (_ * / ?w) _ _ = _ => replace w with (1 + t) by ring end.
  f_equal; ring.
Qed.
Lemma rat_not_two : ~ has_velocity (evaluate rat_curve) (in_curve rat_curve 1) 0 (V3 (qc 2 1) 0 0).
Proof.
  intros (p & E & H). rewrite rat_evaluate in E by (apply rat_domain; split; discriminate). injection E as E. 
  destruct (H 1 eq_refl) as (delta & D0 & HD). clear H. set (t := Qcmin delta (qc 1 4)).
  assert (0 < t /\ t <= qc 1 4 /\ t <= delta) as (T0 & T1 & T2).
  { unfold t, Qcmin. destruct (qc 1 4 <? delta) eqn:Q; qcb; [split; [reflexivity|]; split; [apply Qcle_refl|apply Qclt_le_weak; assumption]|split; [assumption|]; split; [assumption|apply Qcle_refl]]. }
  clearbody t. assert (in_curve rat_curve 1 t) as D. { apply rat_domain. assert (qc 1 4 <= 1) by discriminate. split; qc_lra. }
  destruct (HD t D) as (p' & E' & W & _). { apply Qcabs_le. split; qc_lra. }
  rewrite (rat_evaluate t D) in E'. injection E' as <-. rewrite <- E in W. revert W. unfold ahead. cbn [vx].
  assert (1 + t <> 0) as N. { intros X. assert (0 < 1 + t) as L by qc_lra. rewrite X in L. discriminate L. }
  assert (qc 2 1 = 1 + 1) as -> by (apply Qc_is_canon; vm_compute; reflexivity). assert (qc 4 1 = 1 + 1 + 1 + 1) as -> by (apply Qc_is_canon; vm_compute; reflexivity).
  replace ((1 + 1 + 1 + 1) * 0 / (1 + 0)) with 0 by (apply Qc_is_canon; vm_compute; reflexivity).
  replace (t - 0) with t by ring. assert (Qcabs t = t) as ->. { destruct (Qcabs_cases t) as [[? Q]|[? Q]]; [exact Q|exfalso; qc_lra]. }
  intros W. apply Qcabs_le in W. destruct W as [_ W].
  assert (((1 + 1 + 1 + 1) * t / (1 + t) - (0 + t * (1 + 1))) * (1 + t) = (1 + 1) * t - (1 + 1) * (t * t)) as Q by (field; assumption).
  set (x := (1 + 1 + 1 + 1) * t / (1 + t) - (0 + t * (1 + 1))) in *. clearbody x.
  assert (x * (1 + t) <= (1 * t) * (1 + t)) as L. { rewrite (Qcmult_comm x), (Qcmult_comm (1 * t)). apply Qcmul_le_l; [qc_lra|assumption]. }
  rewrite Q in L. replace (1 * t * (1 + t)) with (t + t * t) in L by ring.
  assert (t * t <= qc 1 4 * t) as L2. { rewrite (Qcmult_comm (qc 1 4)). apply Qcmul_le_l; [qc_lra|assumption]. }
  assert (qc 1 4 * t + qc 1 4 * t + qc 1 4 * t + qc 1 4 * t = t) as F. { replace (qc 1 4 * t + qc 1 4 * t + qc 1 4 * t + qc 1 4 * t) with ((qc 1 4 + qc 1 4 + qc 1 4 + qc 1 4) * t) by ring. replace (qc 1 4 + qc 1 4 + qc 1 4 + qc 1 4) with 1 by (apply Qc_is_canon; vm_compute; reflexivity). ring. }
  set (y := qc 1 4 * t) in *. clearbody y. rewrite <- F in L, T0. rewrite <- F in L2. set (z := (y + y + y + y) * (y + y + y + y)) in *. clearbody z.
  assert ((1 + 1) * (y + y + y + y) - (1 + 1) * z <= y + y + y + y + z) as L' by exact L. replace ((1 + 1) * (y + y + y + y)) with (y + y + y + y + (y + y + y + y)) in L' by ring. replace ((1 + 1) * z) with (z + z) in L' by ring. qc_lra.
Qed.

Lemma rat_derivative : nc_derivative rat_curve 0 = Ok (V3 (qc 2 1) 0 0).
Proof. apply v3_ok_eq. vm_compute. reflexivity. Qed.
Lemma derivative_rational_witness : exists c n t d, good_curve c n /\ (1 <= nc_degree c <= 3)%nat /\ positive_weights (nc_cps c) /\ in_curve c n t /\
  nc_derivative c t = Ok d /\ ~ has_velocity (evaluate c) (in_curve c n) t d.
Proof.
  exists rat_curve, 1%nat, 0, (V3 (qc 2 1) 0 0). split; [exact rat_good|]. split; [vm_compute; lia|]. split; [exact rat_positive|].
  split; [apply rat_domain; split; discriminate|]. split; [exact rat_derivative|exact rat_not_two].
Qed.
Lemma get_derivative_rational_witness : exists c n d t v, good_curve c n /\ (1 <= nc_degree c)%nat /\ positive_weights (nc_cps c) /\ in_curve c n t /\
  nc_get_derivative c = Ok d /\ evaluate d t = Ok v /\ ~ has_velocity (evaluate c) (in_curve c n) t v.
Proof.
  exists rat_curve, 1%nat, (get_ok nc_default (nc_get_derivative rat_curve)), 0, (V3 (qc 2 1) 0 0). split; [exact rat_good|]. split; [vm_compute; lia|]. split; [exact rat_positive|].
  split; [apply rat_domain; split; discriminate|]. split; [vm_compute; reflexivity|]. split; [apply v3_ok_eq; vm_compute; reflexivity|exact rat_not_two].
Qed.

(** ** finite differences *)
Definition line_points : list vec3 := [V3 0 0 0; V3 1 0 0].
Definition line : ncurve := get_ok nc_default (nc_make3 line_points 1 false).

Lemma line_good : good_curve line 1. Proof. apply good_b_ok. vm_compute. reflexivity. Qed.
Lemma line_unit : unit_weights (nc_cps line). Proof. intros q [<-|[<-|[]]]; reflexivity. Qed.
Lemma line_knot i : (i < 4)%nat -> knot (nc_knots line) i = if Nat.leb 2 i then 1 else 0.
Proof. destruct i as [|[|[|[|]]]]; intros; try lia; apply Qc_is_canon; vm_compute; reflexivity. Qed.
Lemma line_domain t : in_curve line 1 t <-> 0 <= t /\ t <= 1.
Proof. unfold in_curve, in_domain. change (nc_degree line) with 1%nat. rewrite !line_knot by lia. cbn [Nat.leb Nat.add]. tauto. Qed.
Lemma line_evaluate t : in_curve line 1 t -> evaluate line t = Ok (V3 t 0 0).
Proof.
  intros D. assert (is_span (knot (nc_knots line)) 1 1 t) as I.
  { apply line_domain in D. destruct D as [A B]. unfold is_span. rewrite !line_knot by lia. cbn [Nat.leb]. split; [lia|]. split; [assumption|].
    destruct (Qc_eq_dec t 1) as [->|N]; [right; auto|left]. apply Qcnot_le_lt. intros L. apply N. apply Qcle_antisym; assumption. }
  pose proof (proj1 (proj2 line_good)) as V. rewrite (evaluate_positive line 1 t eq_refl V ltac:(vm_compute; lia) D (unit_positive _ line_unit)).
  f_equal. unfold rational_point, weighted_at, weight_at. cbn [qsum]. change (nc_degree line) with 1%nat in *.
  rewrite !(basis_at_bsp _ _ _ _ _ _ V D I). cbn [bsp Nat.eqb Nat.add]. rewrite !line_knot by lia. cbn [Nat.leb].
  change (nc_cps line) with [V4 0 0 0 1; V4 1 0 0 1]. cbn [nth ww wx wy wz].
  unfold Qcdiv. replace (/ (1 - 0)) with 1 by (apply Qc_is_canon; vm_compute; reflexivity).
  match goal with |- V3 (_ * / ?w) _ _ = _ => replace w with 1 by ring end. replace (/ 1) with 1 by (apply Qc_is_canon; vm_compute; reflexivity).
  f_equal; ring.
Qed.
Lemma two_fdm : fdm_2h = (1 + 1) * fdm_h. Proof. apply Qc_is_canon. vm_compute. reflexivity. Qed.
Lemma fdm_ratio : Qcabs ((1 + 1) * (fdm_h * fdm_h) / fdm_hh - (1 + 1)) <= qc 1 1000000000000. Proof. vm_compute. discriminate. Qed.
Lemma fdm_pos : 0 < fdm_h. Proof. reflexivity. Qed.
Lemma fdm_nz : (1 + 1) * fdm_h <> 0. Proof. discriminate. Qed.

(** on a quadratic the central difference is the exact derivative *)
Lemma fdm_exact c p d a t : (forall u, t - fdm_h <= u -> u <= t + fdm_h -> evaluate c u = Ok (quad3 p d a u)) ->
  nc_derivative_fdm c t = Ok (ahead d (t + t) a) /\
  exists k, Qcabs (k - (1 + 1)) <= qc 1 1000000000000 /\ nc_derivatives_fdm c t = Ok (quad3 p d a t, ahead d (t + t) a, V3 (k * vx a) (k * vy a) (k * vz a)).
Proof.
  pose proof fdm_pos as P. pose proof fdm_nz as N. intros H. unfold nc_derivative_fdm, nc_derivatives_fdm.
  rewrite (H t), (H (t - fdm_h)), (H (t + fdm_h)) by (set (h := fdm_h) in *; clearbody h; qc_lra). cbn [bind].
  pose proof fdm_ratio as R. rewrite two_fdm. set (h := fdm_h) in *. set (hh := fdm_hh) in *. clearbody h hh.
  assert (forall x y z, (x + (t + h) * y + (t + h) * (t + h) * z - (x + (t - h) * y + (t - h) * (t - h) * z)) / ((1 + 1) * h) = y + (t + t) * z) as E.
  { intros. assert (h <> 0) by (intros X; apply N; rewrite X; ring). field. split; [assumption|discriminate]. }
  unfold v3scale_div, v3minus, v3plus, quad3, ahead. cbn [vx vy vz]. rewrite !E. split; [reflexivity|]. exists ((1 + 1) * (h * h) / hh).
  split; [exact R|]. do 3 f_equal; unfold Qcdiv; ring.
Qed.

Lemma line_quad u : in_curve line 1 u -> evaluate line u = Ok (quad3 (V3 0 0 0) (V3 1 0 0) (V3 0 0 0) u).
Proof. intros D. rewrite (line_evaluate u D). unfold quad3. cbn [vx vy vz]. do 2 f_equal; ring. Qed.
Lemma line_window u : qc 1 2 - fdm_h <= u -> u <= qc 1 2 + fdm_h -> in_curve line 1 u.
Proof.
  intros A B. apply line_domain. assert (0 <= qc 1 2 - fdm_h) by discriminate. assert (qc 1 2 + fdm_h <= 1) by discriminate.
  set (h := fdm_h) in *. clearbody h. split; qc_lra.
Qed.
Lemma second_fdm_witness : exists c n t, good_curve c n /\ unit_weights (nc_cps c) /\ (forall u, in_curve c n u -> evaluate c u = Ok (V3 u 0 0)) /\
  in_curve c n (t - fdm_h) /\ in_curve c n (t + fdm_h) /\
  nc_second_derivative_fdm c t = Ok (V3 1 0 0) /\ exists d1, nc_derivatives_fdm c t = Ok (V3 t 0 0, d1, V3 0 0 0).
Proof.
  exists line, 1%nat, (qc 1 2). split; [exact line_good|]. split; [exact line_unit|]. split; [exact line_evaluate|].
  destruct (fdm_exact line (V3 0 0 0) (V3 1 0 0) (V3 0 0 0) (qc 1 2) (fun u A B => line_quad u (line_window u A B))) as (E & k & _ & E2).
  split; [apply line_window; [apply Qcle_refl|vm_compute; discriminate]|]. split; [apply line_window; [vm_compute; discriminate|apply Qcle_refl]|]. split.
  - change (nc_second_derivative_fdm line (qc 1 2)) with (nc_derivative_fdm line (qc 1 2)). rewrite E. reflexivity.
  - exists (ahead (V3 1 0 0) (qc 1 2 + qc 1 2) (V3 0 0 0)). rewrite E2. unfold quad3; cbn [vx vy vz].
    assert (forall (a b a' b' m : vec3), a = a' -> b = b' -> Ok (a, m, b) = Ok (a', m, b')) as K by (intros; subst; reflexivity).
    apply K; f_equal; ring.
Qed.

(** ** a cubic *)
Definition swing_points : list vec3 := [V3 0 0 0; V3 1 0 0; V3 1 1 0; V3 0 1 0; V3 0 (qc 2 1) 0].
Definition swing : ncurve := get_ok nc_default (nc_make3 swing_points 3 false).
Lemma swing_made : nc_make3 swing_points 3 false = Ok swing. Proof. vm_compute. reflexivity. Qed.
Lemma swing_ok : good_curve swing 4 /\ (1 <= nc_degree swing <= 3)%nat /\ unit_weights (nc_cps swing) /\ inner_multiplicity 4 3 (nc_knots swing) 1 /\
  knot (nc_knots swing) 3 < knot (nc_knots swing) 4 /\ in_curve swing 4 (qc 1 2) /\ multiplicity (nc_knots swing) (qc 1 2) = 0%nat.
Proof.
  split; [apply good_b_ok; vm_compute; reflexivity|]. split; [vm_compute; lia|]. split; [|split; [exact (made_inner swing_points 3 swing 4 ltac:(cbn; lia) swing_made eq_refl)|]].
  - destruct (make3_top swing_points 3 ltac:(cbn; lia) ltac:(lia)) as (c' & n' & E' & _ & _ & _ & _ & W & _). rewrite swing_made in E'. injection E' as <-. exact W.
  - split; [vm_compute; reflexivity|]. split; [split; vm_compute; discriminate|vm_compute; reflexivity].
Qed.
Lemma swing_values : nc_derivative swing (qc 1 2) = Ok (V3 (qc 9 16) (qc 15 16) 0) /\
  (l <- nc_derivatives swing (qc 1 2) 4 ;; get l 2) = Ok (V3 (qc (-15) 4) (qc 3 4) 0) /\
  nc_derivatives swing (qc 1 2) 5 = UB.
Proof. split; [apply v3_ok_eq; vm_compute; reflexivity|]. split; [apply v3_ok_eq; vm_compute; reflexivity|vm_compute; reflexivity]. Qed.

(** a quartic and a step function *)
Definition quartic : ncurve := get_ok nc_default (nc_make3 swing_points 4 false).
Lemma quartic_ok : good_curve quartic 4 /\ nc_degree quartic = 4%nat /\ unit_weights (nc_cps quartic) /\ in_curve quartic 4 (qc 1 2).
Proof.
  split; [apply good_b_ok; vm_compute; reflexivity|]. split; [reflexivity|]. split; [|split; vm_compute; discriminate].
  assert (nc_make3 swing_points 4 false = Ok quartic) as M by (vm_compute; reflexivity).
  destruct (make3_top swing_points 4 ltac:(cbn; lia) ltac:(lia)) as (c' & n' & E' & _ & _ & _ & _ & W & _). rewrite M in E'. injection E' as <-. exact W.
Qed.
Lemma derivative_high_witness : exists c n t, good_curve c n /\ unit_weights (nc_cps c) /\ in_curve c n t /\
  nc_derivative c t = Throw EInvalidArgument /\ exists d, has_velocity (evaluate c) (in_curve c n) t d.
Proof.
  exists quartic, 4%nat, (qc 1 2). destruct quartic_ok as (G & D & W & I). split; [exact G|]. split; [exact W|]. split; [exact I|].
  split; [apply (derivative_high quartic 4 _ G ltac:(rewrite D; lia) I)|].
  destruct (get_derivative_top quartic 4 G ltac:(rewrite D; lia) W ltac:(vm_compute; reflexivity)) as (d & _ & _ & _ & _ & _ & _ & H).
  - rewrite D. apply (inner_le _ _ _ 1); [lia|]. apply (made_inner swing_points 4); [cbn; lia|vm_compute; reflexivity|reflexivity].
  - destruct (H (qc 1 2) I) as (v & _ & _ & Q & _). exists v. apply Q. right. right. rewrite D. vm_compute. lia.
Qed.
Definition steps : ncurve := get_ok nc_default (nc_make3 line_points 0 false).
Lemma steps_ok : good_curve steps 1 /\ nc_degree steps = 0%nat /\ in_curve steps 1 (qc 1 2).
Proof. split; [apply good_b_ok; vm_compute; reflexivity|]. split; [reflexivity|split; vm_compute; discriminate]. Qed.
