(** Vectors cross is called with. *)
From Coq Require Import List ZArith QArith Qcanon Bool Lia Lqa.
From Verif Require Import Base BaseFacts ModelVec ModelRoundCross SpecRound SpecRoundKd SpecRoundCell SpecRoundCross ProofRound ProofRoundDouble ProofRoundFull ProofRoundKd.
Open Scope Qc_scope.

Lemma is_vector o p : match o with Some q => Qceqb (vx q) (vx p) && Qceqb (vy q) (vy p) && Qceqb (vz q) (vz p) | None => false end = true -> o = Some p.
Proof.
  destruct o as [q|]; try discriminate. intros H. apply andb_true_iff in H as (H & H3). apply andb_true_iff in H as (H1 & H2). apply Qceqb_iff in H1, H2, H3. destruct p, q. cbn in *. congruence.
Qed.
(** 1 + 2^-30: its square takes 61 bits *)
Definition long_square : Qc := 1 + p2 (-30).
Lemma long_double : a_double long_square.
Proof.
  pose proof (full_exact 1073741825 (-30) ltac:(cbn; lia) ltac:(lia)) as E. unfold a_double. replace long_square with (ofZ 1073741825 * p2 (-30)); [exact E|]. apply Qc_is_canon. vm_compute. reflexivity.
Qed.
Lemma zero_double : a_double 0.
Proof. pose proof (full_exact 0 0 ltac:(cbn; lia) ltac:(lia)) as E. change (ofZ 0) with 0 in E. rewrite Qcmult_0_l in E. exact E. Qed.
Lemma self_fused : fcross first_fused (V3 0 long_square long_square) (V3 0 long_square long_square) = Some (V3 (p2 (-60)) 0 0).
Proof. apply is_vector. vm_compute. reflexivity. Qed.
Lemma self_case : exists a v, double_point a /\ fcross first_fused a a = Some v /\ v <> V3 0 0 0 /\ ~ opposite v v.
Proof.
  exists (V3 0 long_square long_square), (V3 (p2 (-60)) 0 0). split; [repeat split; [apply zero_double|apply long_double|apply long_double]|]. split; [apply self_fused|]. pose proof (p2_pos (-60)) as P.
  split; [intros H; apply (f_equal vx) in H|intros (H & _)]; cbn [vx] in H; qc_lra.
Qed.
Lemma self_unfused : fcross full_never (V3 0 long_square long_square) (V3 0 long_square long_square) = Some (V3 0 0 0).
Proof. apply is_vector. vm_compute. reflexivity. Qed.
(** the products are too large: infinity minus infinity is not a number *)
Lemma self_large : fcross full_never (V3 0 (p2 600) (p2 600)) (V3 0 (p2 600) (p2 600)) = None.
Proof. vm_compute. reflexivity. Qed.
Lemma grid_case : on_grid3 0 26 (V3 1 0 0) /\ on_grid3 0 26 (V3 0 1 0) /\ v3cross (V3 1 0 0) (V3 0 1 0) = V3 0 0 1.
Proof.
  split; [|split].
  - exists 1%Z, 0%Z, 0%Z. repeat split; apply Qc_is_canon; vm_compute; reflexivity.
  - exists 0%Z, 1%Z, 0%Z. repeat split; apply Qc_is_canon; vm_compute; reflexivity.
  - unfold v3cross. cbn [vx vy vz]. f_equal; ring.
Qed.
