(** Concrete cases for the numeric helpers. *)
From Coq Require Import List ZArith QArith Qcanon Lia.
From Verif Require Import Base BaseFacts ModelBinom ModelNumeric SpecNurbs SpecNumeric ProofIntegrate ProofMinimize ProofMatrix WitnessNurbs.
Import ListNotations.
Open Scope Qc_scope.

Lemma qc_eq_b (a b : Qc) : (a =? b) = true -> a = b.
Proof. intros H. destruct (Qceqb_spec a b); congruence. Qed.

(** C98: the square of x (2x-1) (x-1) (4x-1) (4x-3), zero at the five points the
    rule looks at on [0, 1] *)
Definition hidden_poly : list Qc := map Qc_of_Z [0; 0; 9; -150; 1045; -3980; 9092; -12800; 10880; -5120; 1024]%Z.
Lemma estimate_witness : exists cs t0 t1 tol depth, let q := integrate (poly cs) t0 t1 tol depth in
  0 < tol /\ t0 < t1 /\ (2 <= depth)%nat /\ q_error q < tol /\ tol < Qcabs (q_result q - poly_integral cs t0 t1).
Proof.
  exists hidden_poly, 0, 1, (qc 1 1000), 10%nat. cbv zeta. split; [vm_compute; reflexivity|]. split; [vm_compute; reflexivity|].
  split; [lia|]. split; vm_compute; reflexivity.
Qed.

(** C53, C95: an integrand on which the rule subdivides, x^4 on [0, 1] with
    depth 2 and tolerance 1/10000 *)
Lemma quad_case : let q := integrate (fun x => x * x * x * x) 0 1 (qc 1 10000) 2 in
  length (q_calls q) = 9%nat /\ 0 < q_error q /\ q_result q <> qc 1 5.
Proof. cbv zeta. split; [vm_compute; reflexivity|]. split; [vm_compute; reflexivity|]. vm_compute. discriminate. Qed.

(** C54, C55, C101: (x - 1)^2 on [0, 3] *)
Definition parabola (x : Qc) : Qc := (x - 1) * (x - 1).
Lemma parabola_unimodal : unimodal parabola 0 (qc 3 1) 1.
Proof.
  split; [vm_compute; discriminate|]. split; [vm_compute; discriminate|]. unfold parabola. split; intros x y H1 H2 H3.
  - assert (0 < (y - x) * ((1 - x) + (1 - y))) by (apply Qcmul_pos; qc_lra). qc_push. Lqa.nra.
  - assert (0 < (y - x) * ((x - 1) + (y - 1))) by (apply Qcmul_pos; qc_lra). qc_push. Lqa.nra.
Qed.
Lemma parabola_case : exists r calls, minimize_scalar_bounded parabola 0 (qc 3 1) (qc 1 1) 6 (fun _ => (true, true)) = Ok (r, calls) /\
  or_success r = true /\ (3 < length calls)%nat.
Proof.
  destruct (minimize_scalar_bounded parabola 0 (qc 3 1) (qc 1 1) 6 (fun _ => (true, true))) as [[r calls]|e|] eqn:E;
    [|exfalso; revert E; vm_compute; discriminate|exfalso; revert E; vm_compute; discriminate].
  exists r, calls. split; [reflexivity|].
  assert (match minimize_scalar_bounded parabola 0 (qc 3 1) (qc 1 1) 6 (fun _ => (true, true)) with
    Ok (r, calls) => or_success r = true /\ (Nat.ltb 3 (length calls)) = true | _ => False end) as H by (vm_compute; auto).
  rewrite E in H. destruct H as (H1 & H2). split; [exact H1|]. apply Nat.ltb_lt. exact H2.
Qed.
(** C100 *)
Lemma limit_witness : exists f x1 x2 xatol maxiter zs r calls, x1 < x2 /\ 0 < xatol /\ (0 < maxiter)%Z /\
  minimize_scalar_bounded f x1 x2 xatol maxiter zs = Ok (r, calls) /\ (maxiter < Z.of_nat (length calls))%Z.
Proof.
  destruct (minimize_scalar_bounded parabola 0 (qc 3 1) (qc 1 10) 1 (fun _ => (true, true))) as [[r calls]|e|] eqn:E;
    [|exfalso; revert E; vm_compute; discriminate|exfalso; revert E; vm_compute; discriminate].
  exists parabola, 0, (qc 3 1), (qc 1 10), 1%Z, (fun _ => (true, true)), r, calls.
  split; [vm_compute; reflexivity|]. split; [vm_compute; reflexivity|]. split; [lia|]. split; [exact E|].
  assert (match minimize_scalar_bounded parabola 0 (qc 3 1) (qc 1 10) 1 (fun _ => (true, true)) with
    Ok (r, calls) => (1 <? Z.of_nat (length calls))%Z = true | _ => False end) as H by (vm_compute; reflexivity).
  rewrite E in H. apply Z.ltb_lt. exact H.
Qed.

(** C102 *)
Lemma initializer_witness : exists rows : list (list Qc), length rows = 2%nat /\ (forall r, In r rows -> length r = 2%nat) /\
  m2_of_lists rows <> M2 (nth 0 (nth 0 rows []) 0) (nth 1 (nth 0 rows []) 0) (nth 0 (nth 1 rows []) 0) (nth 1 (nth 1 rows []) 0).
Proof.
  exists [[1; 0]; [0; 1]]. split; [reflexivity|]. split; [intros r [<-|[<-|[]]]; reflexivity|]. vm_compute. discriminate.
Qed.

(** C57: a matrix that needs a row exchange *)
Definition demo_matrix : matd := MD (map Qc_of_Z [0; 2; 1; 1; 1; 0; 3; 0; 1]%Z) 3 3.
Lemma demo_matrix_case : md_ok demo_matrix /\ md_rows demo_matrix = md_cols demo_matrix /\ exists b, md_inverse demo_matrix = Ok b.
Proof. split; [reflexivity|]. split; [reflexivity|]. eexists. vm_compute. reflexivity. Qed.
Definition demo_singular : matd := MD (map Qc_of_Z [1; 2; 2; 4]%Z) 2 2.
Lemma demo_singular_case : md_ok demo_singular /\ md_rows demo_singular = md_cols demo_singular /\ singular 2 demo_singular.
Proof.
  split; [reflexivity|]. split; [reflexivity|]. exists (fun i => if Nat.eqb i 0 then qc 2 1 else - (1)). split.
  - exists 0%nat. split; [lia|]. vm_compute. discriminate.
  - intros i Hi. destruct i as [|[|i]]; [| |lia]; apply qc_eq_b; vm_compute; reflexivity.
Qed.

(** C103: the 1 x 1 matrix 10^-11 *)
Definition tiny : Qc := qc 1 100000000000.
Lemma small_pivot_witness : exists a b, md_ok a /\ md_ok b /\ md_rows a = md_cols a /\ inverse_of (md_rows a) a b /\ md_inverse a = Throw ERuntime.
Proof.
  exists (MD [tiny] 1 1), (MD [qc 100000000000 1] 1 1). split; [reflexivity|]. split; [reflexivity|]. split; [reflexivity|]. split; [|vm_compute; reflexivity].
  split; intros i j Hi Hj; cbn in Hi, Hj; assert (i = 0%nat) as -> by lia; assert (j = 0%nat) as -> by lia; apply qc_eq_b; vm_compute; reflexivity.
Qed.
