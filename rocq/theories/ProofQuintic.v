(** The error estimate of the adaptive Simpson rule bounds the true error for
    polynomials of degree at most five. *)
From Coq Require Import List ZArith QArith Qcanon Bool Lia Lqa Field.
From Verif Require Import Base BaseFacts ModelNumeric SpecNumeric ProofIntegrate.
Import ListNotations.
Open Scope Qc_scope.

Lemma Qcabs_add a b : Qcabs (a + b) <= Qcabs a + Qcabs b.
Proof. unfold Qcabs. destruct (Qcltb_spec a 0), (Qcltb_spec b 0), (Qcltb_spec (a + b) 0); qc_lra. Qed.

Definition quint (c0 c1 c2 c3 c4 c5 x : Qc) : Qc := c0 + x * (c1 + x * (c2 + x * (c3 + x * (c4 + x * c5)))).
Definition quint_anti (c0 c1 c2 c3 c4 c5 x : Qc) : Qc :=
  x * (c0 + x * (c1 / qc 2 1 + x * (c2 / qc 3 1 + x * (c3 / qc 4 1 + x * (c4 / qc 5 1 + x * (c5 / qc 6 1)))))).

Lemma quint_ext f c0 c1 c2 c3 c4 c5 t0 t1 tol depth : (forall x, f x = quint c0 c1 c2 c3 c4 c5 x) ->
  let q := integrate f t0 t1 tol depth in
  Qcabs (q_result q - (quint_anti c0 c1 c2 c3 c4 c5 t1 - quint_anti c0 c1 c2 c3 c4 c5 t0)) <= q_error q.
Proof.
  intros Hf q. unfold q, integrate. set (acc := Quad 0 0 _). set (F := quint_anti c0 c1 c2 c3 c4 c5).
  enough (Qcabs (q_result (adaptive_simpson depth f t0 t1 (f t0) (f t1) (f (qc 1 2 * (t0 + t1))) ((t1 - t0) / qc 6 1 * (f t0 + qc 4 1 * f (qc 1 2 * (t0 + t1)) + f t1)) tol acc) - q_result acc - (F t1 - F t0))
     <= q_error (adaptive_simpson depth f t0 t1 (f t0) (f t1) (f (qc 1 2 * (t0 + t1))) ((t1 - t0) / qc 6 1 * (f t0 + qc 4 1 * f (qc 1 2 * (t0 + t1)) + f t1)) tol acc) - q_error acc) as E.
  { cbn [acc q_result q_error] in E. set (z := adaptive_simpson _ _ _ _ _ _ _ _ _ _) in *. clearbody z.
    replace (q_result z - 0 - (F t1 - F t0)) with (q_result z - (F t1 - F t0)) in E by ring. replace (q_error z - 0) with (q_error z) in E by ring. exact E. }
  apply (simpson_ind f (fun a b S => S = (b - a) / qc 6 1 * (f a + qc 4 1 * f (qc 1 2 * (a + b)) + f b))
    (fun a b acc out => Qcabs (q_result out - q_result acc - (F b - F a)) <= q_error out - q_error acc)); [|reflexivity].
  clear acc q depth tol t0 t1. intros a b S tol acc d HS. intros m m1 m2 SL SR est acc1.
  assert (SL + SR + est = F b - F a) as EX.
  { unfold est, SL, SR, F, quint_anti. rewrite HS, !Hf. unfold m1, m2, m, quint. clear. qfield. }
  split; [|split].
  - intros _. cbn [q_result q_error]. replace (q_result acc + (SL + SR) - q_result acc - (F b - F a)) with (- est) by (rewrite <- EX; ring).
    rewrite Qcabs_opp. replace (q_error acc + Qcabs est - q_error acc) with (Qcabs est) by ring. apply Qcle_refl.
  - split.
    + unfold SL, m1. fold m. replace (m - a) with ((b - a) / qc 2 1) by (unfold m; qfield).
      assert (forall k x, x / qc 12 1 * k = x / qc 2 1 / qc 6 1 * k) as R by (intros; qfield). apply R.
    + unfold SR, m2. fold m. replace (b - m) with ((b - a) / qc 2 1) by (unfold m; qfield).
      assert (forall k x, x / qc 12 1 * k = x / qc 2 1 / qc 6 1 * k) as R by (intros; qfield). apply R.
  - intros x y H1 H2. cbn [acc1 q_result q_error] in H1. 
    replace (q_result y - q_result acc - (F b - F a)) with ((q_result x - q_result acc - (F m - F a)) + (q_result y - q_result x - (F b - F m))) by ring.
    eapply Qcle_trans; [apply Qcabs_add|]. qc_lra.
Qed.

Lemma quintic_top : forall cs t0 t1 tol depth, (length cs <= 6)%nat ->
  let q := integrate (poly cs) t0 t1 tol depth in
  Qcabs (q_result q - poly_integral cs t0 t1) <= q_error q.
Proof.
  intros cs t0 t1 tol depth L.
  assert (exists c0 c1 c2 c3 c4 c5, (forall x, poly cs x = quint c0 c1 c2 c3 c4 c5 x) /\
    (forall a b, poly_integral cs a b = quint_anti c0 c1 c2 c3 c4 c5 b - quint_anti c0 c1 c2 c3 c4 c5 a)) as (c0 & c1 & c2 & c3 & c4 & c5 & E1 & E2).
  { change (Qc_of_nat) with Qc_of_nat. unfold poly_integral, quint, quint_anti.
    destruct cs as [|c0 [|c1 [|c2 [|c3 [|c4 [|c5 [|? ?]]]]]]]; cbn [length] in L; try lia; cbn [poly length seq combine map fst snd];
      change (Qc_of_nat 1) with (qc 1 1); change (Qc_of_nat 2) with (qc 2 1); change (Qc_of_nat 3) with (qc 3 1);
      change (Qc_of_nat 4) with (qc 4 1); change (Qc_of_nat 5) with (qc 5 1); change (Qc_of_nat 6) with (qc 6 1).
    - exists 0, 0, 0, 0, 0, 0. split; intros; qfield.
    - exists c0, 0, 0, 0, 0, 0. split; intros; qfield.
    - exists c0, c1, 0, 0, 0, 0. split; intros; qfield.
    - exists c0, c1, c2, 0, 0, 0. split; intros; qfield.
    - exists c0, c1, c2, c3, 0, 0. split; intros; qfield.
    - exists c0, c1, c2, c3, c4, 0. split; intros; qfield.
    - exists c0, c1, c2, c3, c4, c5. split; intros; qfield. }
  intros q. unfold q. rewrite E2. apply quint_ext. exact E1.
Qed.
