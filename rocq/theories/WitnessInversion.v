(** Concrete cases for the statements about point inversion. *)
From Coq Require Import List ZArith QArith Qcanon Bool Lia.
From Verif Require Import Base BaseFacts ModelVec ModelAabb ModelNurbs ModelNumeric ModelDerivative ModelPolygon ModelSurface ModelSurface2 ModelInversion
  SpecNurbs SpecCurve SpecJoin SpecInversion ProofNurbsTop ProofPeriodic ProofInversion WitnessJoin.
Import ListNotations.
Open Scope Qc_scope.

(** the refutations in the form of the properties *)
Lemma curve_not_found len a b tol1 tol2 k : a <> b ->
  exists c u p, nc_make3 [a; b] 1 false = Ok c /\ nc_interval c = (0, 1) /\ evaluate c 1 = Ok b /\
    invert_curve len c b 0 tol1 tol2 k = Ok u /\ evaluate c u = Ok p /\ p <> b.
Proof.
  intros N. destruct (segment_stuck len a b tol1 tol2 k) as (c & E & E0 & E1 & I & S). exists c, 0, a. auto 7.
Qed.

Definition e1 := V3 1 0 0.
Definition e2 := V3 0 1 0.
Lemma unit_square_gram : ~ Qcabs (gram e1 e2) < DBL_EPS.
Proof. intros F. discriminate F. Qed.

Lemma surface_not_found len P u v tol1 tol2 k : len e1 <> Some 0 -> 0 <= tol1 -> 0 <= tol2 ->
  exists s, parallelogram (V3 0 0 0) e1 e2 = Ok s /\ ns_iu s = (0, 1) /\ ns_iv s = (0, 1) /\
    (forall u v, ns_evaluate s u v = Ok (V3 u v 0)) /\
    invert_surface len k s P u v tol1 tol2 = Ok (u, v).
Proof.
  intros L T1 T2. destruct (plane_still len (V3 0 0 0) e1 e2 P u v tol1 tol2 k unit_square_gram L T1 T2) as (s & E & I1 & I2 & EV & R).
  exists s. split; [exact E|]. split; [exact I1|]. split; [exact I2|]. split; [|exact R].
  intros u' v'. rewrite EV. f_equal. unfold combine3, e1, e2. cbn [vx vy vz]. f_equal; ring.
Qed.

Definition bend := curve_of [pt 0 0; pt 1 1; pt 2 0] 2.
Lemma bend_case : good_curve bend 2 /\ nc_degree bend = 2%nat /\ unit_weights (nc_cps bend) /\
  in_curve bend 2 (qc 1 2 - fdm_h) /\ in_curve bend 2 (qc 1 2 + fdm_h) /\ evaluate bend (qc 1 2) = Ok (V3 1 (qc 1 2) 0).
Proof.
  destruct (curve_of_open [pt 0 0; pt 1 1; pt 2 0] 2 2 ltac:(cbn; lia) ltac:(lia) eq_refl) as ((G & _) & _ & D & W & _).
  split; [exact G|]. split; [exact D|]. split; [exact W|].
  split; [split; apply Qcleb_iff; vm_compute; reflexivity|]. split; [split; apply Qcleb_iff; vm_compute; reflexivity|].
  vm_compute. do 2 f_equal; apply Qc_is_canon; reflexivity.
Qed.
