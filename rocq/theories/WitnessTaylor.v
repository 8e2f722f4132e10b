(** A cubic patch whose differences are not its derivatives. *)
From Coq Require Import List ZArith QArith Qcanon Lia Bool.
From Verif Require Import Base BaseFacts ModelVec ModelAabb ModelNurbs ModelSurface ModelDerivative ModelPolygon ModelCsx ModelSurface2
  SpecAabb SpecNurbs SpecCurve SpecSurface SpecDerivative SpecSurface2 SpecMonomial SpecTaylor
  ProofMinimize ProofDerivative ProofNurbs ProofDecompose ProofSurfaceTop ProofSurfaceDiff ProofSsxGauss ProofLength ProofTaylor WitnessDerivative WitnessNurbs WitnessSurface WitnessSurface2.
Import ListNotations.
Open Scope Qc_scope.

(** (u, v) -> (u^3, v, 0) *)
Definition cubic : nsurf :=
  get_ok ns_none (ns_make [[V4 0 0 0 1; V4 0 1 0 1]; [V4 0 0 0 1; V4 0 1 0 1]; [V4 0 0 0 1; V4 0 1 0 1]; [V4 1 0 0 1; V4 1 1 0 1]] 3 1
    [0; 0; 0; 0; 1; 1; 1; 1] [0; 0; 1; 1]).

Lemma cubic_good : good_surf cubic 3 1. Proof. apply good_surf_b_ok. vm_compute. reflexivity. Qed.
Lemma cubic_unit : unit_surf cubic. Proof. apply unit_b. vm_compute. reflexivity. Qed.
Lemma cubic_cps : ns_cps cubic = [[V4 0 0 0 1; V4 0 1 0 1]; [V4 0 0 0 1; V4 0 1 0 1]; [V4 0 0 0 1; V4 0 1 0 1]; [V4 1 0 0 1; V4 1 1 0 1]].
Proof. reflexivity. Qed.

Lemma cubic_eval u v : 0 <= u -> u <= 1 -> 0 <= v -> v <= 1 -> ns_evaluate cubic u v = Ok (V3 (u * u * u) v 0).
Proof.
  intros A B C D. rewrite (bezier_eval cubic 3 1 u v cubic_good cubic_unit eq_refl eq_refl); try assumption; try (apply list_qc_eqb; vm_compute; reflexivity); try reflexivity.
  rewrite cubic_cps. f_equal. unfold bezier_patch, combination. cbn [qsum]. cbn [cp nth euclid wx wy wz ww vx vy vz]. unfold euclid. cbn [wx wy wz ww vx vy vz].
  unfold bernstein. cbn [Nat.sub qpow pascal Z.add]. 
  replace (Qc_of_Z 1) with 1 by (apply Qc_is_canon; reflexivity). replace (Qc_of_Z (Z.pos (1 + (1 + 1)))) with (1 + 1 + 1) by (apply Qc_is_canon; reflexivity).
  replace (Qc_of_Z (Z.pos (1 + 1 + 1))) with (1 + 1 + 1) by (apply Qc_is_canon; reflexivity).
  f_equal; field; discriminate.
Qed.

Lemma cubic_refuted : exists s n m u v d, good_surf s n m /\ unit_surf s /\ in_surf s n m (u - fdm_h) v /\ u + fdm_h < knot (ns_ku s) (n + 1) /\
  no_knot (ns_ku s) (u - fdm_h) (u + fdm_h) /\ ns_derivative_u s u v = Ok d /\
  ~ has_velocity (fun u' => ns_evaluate s u' v) (fun u' => in_domain n (ns_du s) (ns_ku s) u') u d.
Proof.
  set (t := qc 1 2). set (w := qc 1 4).
  exists cubic, 3%nat, 1%nat, t, w, (V3 (every_second [qc 1 8; qc 3 4; qc 3 2; 1] fdm_h) (every_second [w; 0] fdm_h) (every_second [0; 0] fdm_h)).
  split; [exact cubic_good|]. split; [exact cubic_unit|].
  split; [split; apply in_domain_b; vm_compute; reflexivity|]. split; [vm_compute; reflexivity|]. split; [apply no_knot_b_ok; vm_compute; reflexivity|].
  assert (expands (fun u' => ns_evaluate cubic u' w) (t - fdm_h) (t + fdm_h) t [qc 1 8; qc 3 4; qc 3 2; 1] [w; 0] [0; 0]) as X.
  { intros u A B. assert (0 <= t - fdm_h) by discriminate. assert (t + fdm_h <= 1) by discriminate.
    rewrite cubic_eval; [|set (h := fdm_h) in *; clearbody h; qc_lra|set (h := fdm_h) in *; clearbody h; qc_lra|discriminate|discriminate].
    cbn [poly]. f_equal. f_equal; [|ring|ring].
    replace (qc 1 8) with (t * t * t) by (apply Qc_is_canon; reflexivity). replace (qc 3 4) with ((1 + 1 + 1) * t * t) by (apply Qc_is_canon; reflexivity).
    replace (qc 3 2) with ((1 + 1 + 1) * t) by (apply Qc_is_canon; reflexivity). ring. }
  destruct (expands_difference _ (fun u' => in_domain 3 (ns_du cubic) (ns_ku cubic) u') _ _ _ _ X) as [A V]. split; [exact A|].
  intros V'. assert (forall d, 0 < d -> exists t', in_domain 3 (ns_du cubic) (ns_ku cubic) t' /\ t' <> t /\ Qcabs (t' - t) <= d) as N.
  { intros d Hd. destruct (Qcmin_pos d t Hd ltac:(reflexivity)) as (e & E0 & E1 & E2). exists (t + e). split; [|split].
    - assert (knot (ns_ku cubic) (ns_du cubic) = 0) as K0 by (vm_compute; reflexivity). assert (knot (ns_ku cubic) (3 + 1) = 1) as K1 by (vm_compute; reflexivity).
      assert (t + t = 1) by (apply Qc_is_canon; reflexivity). assert (0 < t) by reflexivity.
      split; rewrite ?K0, ?K1; qc_lra.
    - intros F. assert (e = 0) as Z by (replace e with (t + e - t) by ring; rewrite F; ring). rewrite Z in E0. discriminate E0.
    - replace (t + e - t) with e by ring. destruct (Qcabs_cases e) as [[? ->]|[? ->]]; qc_lra. }
  pose proof (velocity_unique _ _ _ _ _ V V' N) as E. apply (f_equal vx) in E. apply (f_equal this) in E. vm_compute in E. discriminate E.
Qed.

(** the hypotheses for higher degrees hold of it *)
Lemma cubic_case : good_surf cubic 3 1 /\ unit_surf cubic /\ ns_du cubic = 3%nat /\ in_surf cubic 3 1 (qc 1 2 - fdm_h) (qc 1 4) /\
  qc 1 2 + fdm_h < knot (ns_ku cubic) (3 + 1) /\ no_knot (ns_ku cubic) (qc 1 2 - fdm_h) (qc 1 2 + fdm_h) /\
  in_surf cubic 3 1 (qc 1 2) (qc 1 4 - fdm_h) /\ qc 1 4 + fdm_h < knot (ns_kv cubic) (1 + 1) /\ no_knot (ns_kv cubic) (qc 1 4 - fdm_h) (qc 1 4 + fdm_h).
Proof.
  split; [exact cubic_good|]. split; [exact cubic_unit|]. split; [reflexivity|].
  split; [split; apply in_domain_b; vm_compute; reflexivity|]. split; [vm_compute; reflexivity|]. split; [apply no_knot_b_ok; vm_compute; reflexivity|].
  split; [split; apply in_domain_b; vm_compute; reflexivity|]. split; [vm_compute; reflexivity|]. apply no_knot_b_ok; vm_compute; reflexivity.
Qed.
Lemma swing_case : in_curve swing 4 (qc 1 2 - fdm_h) /\ qc 1 2 + fdm_h < knot (nc_knots swing) (4 + 1) /\ no_knot (nc_knots swing) (qc 1 2 - fdm_h) (qc 1 2 + fdm_h).
Proof.
  split; [apply in_domain_b; vm_compute; reflexivity|]. split; [vm_compute; reflexivity|]. apply no_knot_b_ok; vm_compute; reflexivity.
Qed.
