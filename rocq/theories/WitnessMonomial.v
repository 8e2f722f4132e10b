(** Counterexamples and concrete cases for monomial patches. *)
From Coq Require Import List ZArith QArith Qcanon Lia Bool.
From Verif Require Import Base BaseFacts ModelVec ModelAabb ModelNurbs ModelSurface ModelBinom ModelNumeric ModelMonomial
  SpecAabb SpecNurbs SpecCurve SpecSurface SpecMonomial
  ProofSurfaceTop ProofIntegrate ProofMonomialDiff WitnessNurbs WitnessSurface.
Import ListNotations.
Open Scope Qc_scope.

Definition shape_b {A} (T : list (list A)) (n m : nat) : bool := Nat.eqb (length T) n && forallb (fun row => Nat.eqb (length row) m) T.
Lemma shape_b_ok {A} (T : list (list A)) n m : shape_b T n m = true -> shape T n m.
Proof.
  unfold shape_b. rewrite andb_true_iff, forallb_forall. intros [A1 A2]. apply Nat.eqb_eq in A1. split; [exact A1|].
  intros i Hi. apply Nat.eqb_eq, A2, nth_In. lia.
Qed.

(** a biquadratic x linear Bezier patch, weights given by [w] *)
Definition patch_rows (w : nat -> nat -> Qc) : list (list vec4) :=
  map (fun i => map (fun j => let k := w i j in
    V4 (Qc_of_nat i * k) (Qc_of_nat (2 * j + i) * k) (Qc_of_nat (i * i + j) * k) k) (seq 0 2)) (seq 0 3).
Definition bz2 : list Qc := [0; 0; 0; 1; 1; 1].
Definition bz1 : list Qc := [0; 0; 1; 1].
Definition patch_unit : nsurf := get_ok ns_none (ns_make (patch_rows (fun _ _ => 1)) 2 1 bz2 bz1).
Definition patch_rat : nsurf := get_ok ns_none (ns_make (patch_rows (fun i j => Qc_of_nat (1 + i + j))) 2 1 bz2 bz1).

Lemma patch_unit_good : good_surf patch_unit 2 1 /\ unit_surf patch_unit /\ ns_du patch_unit = 2%nat /\ ns_dv patch_unit = 1%nat.
Proof. split; [apply good_surf_b_ok; vm_compute; reflexivity|]. split; [apply unit_b; vm_compute; reflexivity|]. split; vm_compute; reflexivity. Qed.
Lemma patch_unit_shape : shape (ns_cps patch_unit) 3 2. Proof. apply shape_b_ok. vm_compute. reflexivity. Qed.

Lemma rational_trip : exists s o s' a b, good_surf s 2 1 /\ positive_surf s /\ mo_of_surface s = Ok o /\ mo_to_bezier o ns_default = Ok s' /\
  ns_evaluate s (qc 1 2) (qc 1 2) = Ok a /\ ns_evaluate s' (qc 1 2) (qc 1 2) = Ok b /\ a <> b.
Proof.
  exists patch_rat. set (o := get_ok mo_default (mo_of_surface patch_rat)). exists o. set (s' := get_ok ns_default (mo_to_bezier o ns_default)). exists s'.
  set (a := get_ok v3zero (ns_evaluate patch_rat (qc 1 2) (qc 1 2))). set (b := get_ok v3zero (ns_evaluate s' (qc 1 2) (qc 1 2))). exists a, b.
  split; [apply good_surf_b_ok; vm_compute; reflexivity|]. split; [apply pos_b; vm_compute; reflexivity|].
  split; [vm_compute; reflexivity|]. split; [vm_compute; reflexivity|]. split; [vm_compute; reflexivity|]. split; [vm_compute; reflexivity|].
  intros E. assert (Qceqb (vx a) (vx b) = false) as C by (vm_compute; reflexivity). rewrite E in C. clear E. revert C. generalize (vx b). intros x C. qcb. apply C. reflexivity.
Qed.

(** the surface written to is a rational one *)
Lemma stale_target : exists s t o s', good_surf s 2 1 /\ unit_surf s /\ mo_of_surface s = Ok o /\ mo_to_bezier o t = Ok s' /\ good_surf t 2 1 /\ ~ unit_surf s'.
Proof.
  exists patch_unit, patch_rat. set (o := get_ok mo_default (mo_of_surface patch_unit)). exists o. set (s' := get_ok ns_default (mo_to_bezier o patch_rat)). exists s'.
  split; [apply patch_unit_good|]. split; [apply patch_unit_good|]. split; [vm_compute; reflexivity|]. split; [vm_compute; reflexivity|].
  split; [apply good_surf_b_ok; vm_compute; reflexivity|].
  intros U. set (row := nth 2 (ns_cps s') []). set (q := nth 1 row (V4 0 0 0 1)).
  assert (ww q = 1) as E by (apply (U row q); [apply nth_In; vm_compute; lia|apply nth_In; vm_compute; lia]).
  assert (Qceqb (ww q) 1 = false) as C by (vm_compute; reflexivity). qcb. exact (C E).
Qed.

Definition tens : tensor3 := [[V3 1 0 (qc 2 1); V3 0 1 0]; [V3 1 1 1; V3 0 (qc 3 1) 1]; [V3 (qc 2 1) 0 0; V3 1 0 1]].
Lemma tens_shape : shape tens 3 2. Proof. apply shape_b_ok. reflexivity. Qed.
Lemma tens_mono : exists o, mo_set tens = Ok o /\ mo_n o = 3%nat /\ mo_m o = 2%nat /\ shape (mo_coeffs o) 3 2.
Proof. destruct (mo_set_ok tens 2 1 ltac:(lia) ltac:(lia) tens_shape) as (o & E & E1 & E2 & E3). exists o. rewrite E3. auto using tens_shape. Qed.
Lemma row_mono : exists o, mo_set [[V3 1 0 0; V3 0 1 0]] = Ok o /\ shape (mo_coeffs o) 1 2.
Proof. destruct (mo_set_ok [[V3 1 0 0; V3 0 1 0]] 0 1 ltac:(lia) ltac:(lia)) as (o & E & E1 & E2 & E3); [apply shape_b_ok; reflexivity|]. exists o. rewrite E3. split; [exact E|apply shape_b_ok; reflexivity]. Qed.

Lemma bpmat_high : forall n, (30 < n)%Z -> bpmat n = UB.
Proof.
  intros n H. unfold bpmat. destruct (Z.ltb_spec n (-1)); [lia|]. destruct (Z.to_nat (n + 1)) eqn:E; [lia|].
  cbn [for_up Nat.add]. unfold bpmat_cell. rewrite binomial_outside by lia. reflexivity.
Qed.
Lemma degree_limit : forall s, (31 < ns_su s)%nat -> mo_of_surface s = UB.
Proof. intros s H. unfold mo_of_surface. rewrite bpmat_high by lia. reflexivity. Qed.
