(** The export of a clamped surface with unit weights succeeds; digits. *)
From Coq Require Import String Ascii List ZArith QArith Qcanon Bool Lia Lqa.
From Verif Require Import Base BaseFacts LoopFacts ModelVec ModelNurbs ModelMemView ModelSurface ModelStep SpecNurbs SpecCurve SpecSurface SpecStep
  ProofNurbs ProofNurbsTop ProofSurface ProofSurfaceTop ProofRefineMisc ProofStep ProofStepSurf ProofStepTop ProofStepMean ProofStepEdge.
Import ListNotations.
Open Scope Z_scope.

Lemma surface_row_ok P : forall id out, 0 <= id -> id + Z.of_nat (List.length P) < 2 ^ 31 -> (forall q, In q P -> ww q <> 0%Qc) ->
  exists ids out', surface_row P (id, out) = Ok (ids, (id + Z.of_nat (List.length P), out')).
Proof.
  induction P as [|q P IH]; intros id out H1 H2 HW; cbn [surface_row List.length] in *; [do 2 eexists; rewrite Z.add_0_r; reflexivity|].
  assert (forall a, qdiv a (ww q) = Ok (a / ww q)%Qc) as D.
  { intros a. unfold qdiv. destruct (Qceqb (ww q) 0) eqn:E; [|reflexivity]. exfalso. apply (HW q); [left; reflexivity|]. qcb. assumption. }
  rewrite !D. cbn [bind]. rewrite emit_ok by lia. cbn [bind].
  destruct (IH (id + 1) (out ++ [(id, point_text (wx q / ww q) (wy q / ww q) (wz q / ww q))])) as (ids & out' & E); [lia|lia|intros; apply HW; right; assumption|]. rewrite E. cbn [bind].
  do 2 eexists. replace (id + Z.of_nat (S (List.length P))) with (id + 1 + Z.of_nat (List.length P)) by lia. reflexivity.
Qed.
Lemma surface_rows_ok P w : forall id out, 0 <= id -> (forall row, In row P -> List.length row = w) -> id + Z.of_nat (List.length P * w) < 2 ^ 31 -> (forall row q, In row P -> In q row -> ww q <> 0%Qc) ->
  exists ids out', surface_rows P (id, out) = Ok (ids, (id + Z.of_nat (List.length P * w), out')).
Proof.
  induction P as [|row P IH]; intros id out H1 HL H2 HW; cbn [surface_rows List.length] in *; [do 2 eexists; rewrite Z.add_0_r; reflexivity|].
  pose proof (HL row (or_introl eq_refl)) as Lr.
  destruct (surface_row_ok row id out) as (i1 & o1 & E1); [lia|rewrite Lr; lia|intros; apply (HW row); [left; reflexivity|assumption]|]. rewrite E1. cbn [bind]. rewrite Lr.
  destruct (IH (id + Z.of_nat w) o1) as (i2 & o2 & E2); [lia|intros; apply HL; right; assumption|lia|intros; apply (HW row0); [right; assumption|assumption]|]. rewrite E2. cbn [bind].
  do 2 eexists. replace (id + Z.of_nat (S (List.length P) * w)) with (id + Z.of_nat w + Z.of_nat (List.length P * w)) by lia. reflexivity.
Qed.

Lemma ok_emit {A} body id out (F : Z * sink -> res A) : 0 <= id -> id + 1 < 2 ^ 31 -> (forall out', exists r, F (id, (id + 1, out')) = Ok r) -> exists r, bind (emit body (id, out)) F = Ok r.
Proof. intros H1 H2 H. rewrite emit_ok by lia. cbn [bind]. apply H. Qed.
Lemma ok_curve {A} c id out (F : Z * sink -> res A) : 0 <= id -> id + Z.of_nat (List.length (nc_cps c)) + 1 < 2 ^ 31 ->
  (forall i out', exists r, F (i, (id + Z.of_nat (List.length (nc_cps c)) + 1, out')) = Ok r) -> exists r, bind (nc_step c (id, out)) F = Ok r.
Proof. intros H1 H2 H. destruct (nc_step_ok c id out H1 H2) as (o & ->). cbn [bind]. apply H. Qed.

Lemma export_ok s n m id out : good_surf s n m -> unit_surf s -> intervals_current s -> clamped n (ns_du s) (ns_ku s) -> clamped m (ns_dv s) (ns_kv s) ->
  0 <= id -> id + Z.of_nat (S n * S m + 2 * (n + m) + 46) < 2 ^ 31 -> exists r, ns_step s (id, out) = Ok r.
Proof.
  intros G W IC CU CV H1 H2. pose proof G as (LP & LR & _ & _ & VU & VV & _). pose proof IC as (IU & IV).
  destruct (ends_in _ _ _ VU CU) as (U0 & U1 & DU0 & DU1). destruct (ends_in _ _ _ VV CV) as (V0 & V1 & DV0 & DV1).
  assert (in_domain n (ns_du s) (ns_ku s) (fst (ns_iu s))) as I1 by (rewrite IU; cbn [fst]; rewrite U0; exact DU0).
  assert (in_domain n (ns_du s) (ns_ku s) (snd (ns_iu s))) as I2 by (rewrite IU; cbn [snd]; rewrite U1; exact DU1).
  assert (in_domain m (ns_dv s) (ns_kv s) (fst (ns_iv s))) as I3 by (rewrite IV; cbn [fst]; rewrite V0; exact DV0).
  assert (in_domain m (ns_dv s) (ns_kv s) (snd (ns_iv s))) as I4 by (rewrite IV; cbn [snd]; rewrite V1; exact DV1).
  assert (positive_surf s) as PW by (intros row q A B; rewrite (W row q A B); reflexivity).
  destruct (surface_evaluate_top s n m _ _ G (conj I1 I3) PW) as [EA _]. destruct (surface_evaluate_top s n m _ _ G (conj I2 I3) PW) as [EB _].
  destruct (surface_evaluate_top s n m _ _ G (conj I2 I4) PW) as [EC _]. destruct (surface_evaluate_top s n m _ _ G (conj I1 I4) PW) as [ED _].
  destruct (boundary_ok s n m (fst (ns_iu s)) true _ _ G W IC CU CV I1 EA ED) as (b0 & X0 & (G0 & _ & _ & Q0 & _)).
  destruct (boundary_ok s n m (snd (ns_iu s)) true _ _ G W IC CU CV I2 EB EC) as (b1 & X1 & (G1 & _ & _ & Q1 & _)).
  destruct (boundary_ok s n m (fst (ns_iv s)) false _ _ G W IC CU CV I3 EA EB) as (b2 & X2 & (G2 & _ & _ & _ & Q2 & _)).
  destruct (boundary_ok s n m (snd (ns_iv s)) false _ _ G W IC CU CV I4 ED EC) as (b3 & X3 & (G3 & _ & _ & _ & Q3 & _)).
  destruct G0 as (L0 & _). destruct G1 as (L1 & _). destruct G2 as (L2 & _). destruct G3 as (L3 & _). cbv iota in *.
  unfold ns_step. rewrite (used_ok s n m G). cbn [bind].
  destruct (surface_rows_ok (ns_cps s) (S m) id out) as (ids & o1 & E1); [lia|exact LR|rewrite LP; lia|intros row q A B; rewrite (W row q A B); discriminate|].
  rewrite E1. cbn [bind]. rewrite LP in *. destruct (knots_text (ns_ku s)), (knots_text (ns_kv s)).
  set (id1 := id + Z.of_nat (S n * S m)) in *. assert (0 <= id1 /\ id1 + Z.of_nat (2 * (n + m)) + 46 < 2 ^ 31) as [P1 P2] by (unfold id1; lia). clearbody id1.
  apply ok_emit; [lia|lia|intros o2]. unfold ns_boundaries. rewrite X0, X1, X2, X3. cbn [bind curves vertices Nat.ltb Nat.leb]. rewrite Q0, Q1, Q2, Q3.
  destruct (nc_step_ok b0 (id1 + 1) o2) as (o3 & E3); [lia|lia|]. rewrite E3. cbn [bind]. rewrite L0.
  destruct (nc_step_ok b1 (id1 + 1 + Z.of_nat (S m) + 1) o3) as (o4 & E4); [lia|lia|]. rewrite E4. cbn [bind]. rewrite L1.
  destruct (nc_step_ok b2 (id1 + 1 + Z.of_nat (S m) + 1 + Z.of_nat (S m) + 1) o4) as (o5 & E5); [lia|lia|]. rewrite E5. cbn [bind]. rewrite L2.
  destruct (nc_step_ok b3 (id1 + 1 + Z.of_nat (S m) + 1 + Z.of_nat (S m) + 1 + Z.of_nat (S n) + 1) o5) as (o6 & E6); [lia|lia|]. rewrite E6. cbn [bind]. rewrite L3.
  set (id2 := id1 + 1 + Z.of_nat (S m) + 1 + Z.of_nat (S m) + 1 + Z.of_nat (S n) + 1 + Z.of_nat (S n) + 1). assert (0 <= id2 /\ id2 + 37 < 2 ^ 31) as [P3 P4] by (unfold id2; lia). clearbody id2.
  do 8 (rewrite emit_ok by lia; cbn [bind]). unfold get. cbn [nth_error bind].
  do 29 (apply ok_emit; [lia|lia|intros ?; cbv beta iota]). eexists. reflexivity.
Qed.
