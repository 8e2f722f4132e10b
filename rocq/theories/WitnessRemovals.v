(** A knot put in twice and taken out twice. *)
From Coq Require Import List ZArith QArith Qcanon Lia Bool.
From Verif Require Import Base BaseFacts ModelVec ModelNurbs ModelRefine SpecNurbs SpecCurve SpecRefine ProofMinimize ProofPeriodic WitnessNurbs WitnessRefine.
Import ListNotations.
Open Scope Qc_scope.

(** a quadratic with two knots at 1/2 *)
Definition twice_knots : list Qc := [0; 0; 0; qc 1 2; qc 1 2; 1; 1; 1].
Definition twice : list vec4 := [V4 0 0 0 1; V4 (qc 1 2) 1 0 1; V4 1 (qc 3 1) 0 1; V4 (qc 3 2) 1 0 1; V4 (qc 2 1) 0 0 1].
Lemma twice_case : valid_knots 4 2 twice_knots /\ length twice = 5%nat /\ knot twice_knots 2 < qc 1 2 /\ qc 1 2 < knot twice_knots (4 + 1) /\
  separated twice_knots (qc 1 2) /\ multiplicity twice_knots (qc 1 2) = 2%nat /\ knot twice_knots (2 + 1) = qc 1 2.
Proof.
  split; [apply valid_b_ok; vm_compute; reflexivity|]. split; [reflexivity|]. split; [reflexivity|]. split; [reflexivity|]. split; [|split; vm_compute; reflexivity].
  intros x Hx. cbn in Hx. repeat (destruct Hx as [<-|Hx]; [first [left; reflexivity | right; left; reflexivity | right; right; reflexivity]|]). destruct Hx.
Qed.
Lemma twice_removed : knot_removal 2 twice_knots twice (qc 1 2) (qc 10 1) 2 = Ok [V4 0 0 0 1; V4 1 (qc 2 1) 0 1; V4 1 (qc 3 1) 0 1] /\
  knot_removal 2 twice_knots twice (qc 1 2) (qc 10 1) 3 = UB.
Proof. split; [apply ok_l4_ok; vm_compute; reflexivity|vm_compute; reflexivity]. Qed.

Lemma twice_refuted :
  exists cps c c' t Q, nc_make cps 2 false = Ok c /\ good_curve c 2 /\ unit_weights cps /\ insert_knot c t 2 = Ok c' /\
    knot_removal 2 (nc_knots c') (nc_cps c') t (qc 1 1000) 2 = Ok Q /\ length Q = 3%nat /\
    nth 2 (nc_cps c) (V4 0 0 0 0) = V4 (qc 2 1) 0 0 1 /\ nth 2 Q (V4 0 0 0 0) = V4 1 1 0 1.
Proof.
  exists par_points, par_curve, (get_ok nc_default (insert_knot par_curve (qc 1 2) 2)), (qc 1 2), [V4 0 0 0 1; V4 1 (qc 2 1) 0 1; V4 1 1 0 1].
  split; [vm_compute; reflexivity|]. split; [apply good_b_ok; vm_compute; reflexivity|]. split; [intros q [<-|[<-|[<-|[]]]]; reflexivity|].
  split; [vm_compute; reflexivity|]. split; [apply ok_l4_ok; vm_compute; reflexivity|]. split; [reflexivity|].
  split; apply v4eqb_spec; vm_compute; reflexivity.
Qed.
