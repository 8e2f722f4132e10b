(** distanceSq in double arithmetic. *)
From Coq Require Import List ZArith QArith Qcanon Qreduction Bool Lia Lqa.
From Verif Require Import Base BaseFacts ModelVec ModelRoundKd SpecRound SpecRoundKd SpecRoundCell SpecRoundDist SpecRoundSegm ProofRound ProofRoundDouble ProofRoundHull ProofRoundFull ProofRoundKd ProofRoundPolygon ProofRoundCell ProofRoundSegm.
Open Scope Qc_scope.

Lemma this_opp x : this (- x) = (- this x)%Q.
Proof. change (this (- x)) with (Qred (- this x)). rewrite Qred_opp. f_equal. apply canon. Qed.
Lemma nearest_opp y : nearest (- y) = (- nearest y)%Z.
Proof.
  unfold nearest. rewrite this_opp. cbn [Qopp Qnum Qden]. generalize (Qnum (this y)) (Qden (this y)). intros n d.
  pose proof (Z.div_mod n (Zpos d) ltac:(lia)) as E. pose proof (Z.mod_pos_bound n (Zpos d) ltac:(lia)) as B. set (q := (n / Zpos d)%Z) in *. set (r := (n mod Zpos d)%Z) in *. cbv zeta.
  destruct (Z.eq_dec r 0) as [R|R].
  - assert (- n / Zpos d = - q)%Z as -> by (symmetry; apply (Z.div_unique (- n) (Zpos d) (- q) 0); lia).
    assert (- n mod Zpos d = 0)%Z as -> by (symmetry; apply (Z.mod_unique (- n) (Zpos d) (- q) 0); lia). rewrite R. assert (2 * 0 <? Zpos d = true)%Z as -> by reflexivity. reflexivity.
  - assert (- n / Zpos d = - q - 1)%Z as -> by (symmetry; apply (Z.div_unique (- n) (Zpos d) (- q - 1) (Zpos d - r)); lia).
    assert (- n mod Zpos d = Zpos d - r)%Z as -> by (symmetry; apply (Z.mod_unique (- n) (Zpos d) (- q - 1) (Zpos d - r)); lia).
    destruct (Z.ltb_spec (2 * (Zpos d - r)) (Zpos d)), (Z.ltb_spec (2 * r) (Zpos d)), (Z.eqb_spec (2 * (Zpos d - r)) (Zpos d)), (Z.eqb_spec (2 * r) (Zpos d)); try lia.
    assert (Z.even (- q - 1) = negb (Z.even q)) as -> by (rewrite Z.even_sub, Z.even_opp; cbn; destruct (Z.even q); reflexivity). destruct (Z.even q); cbn [negb]; lia.
Qed.
Lemma abs_opp x : Qcabs (- x) = Qcabs x.
Proof. apply Qcle_antisym; apply abs_le; pose proof (Qcle_Qcabs x); pose proof (Qcopp_Qcabs x); pose proof (Qcle_Qcabs (- x)); pose proof (Qcopp_Qcabs (- x)); qc_lra. Qed.
Lemma exponent_opp x : exponent (- x) = exponent x.
Proof. unfold exponent. rewrite abs_opp, this_opp. cbn [Qopp Qnum Qden]. rewrite Z.abs_opp. reflexivity. Qed.
Lemma unbounded_opp x : unbounded (- x) = - unbounded x.
Proof.
  rewrite !unbounded_eq, exponent_opp. set (e := Z.max _ _). replace (- x * p2 (52 - e)) with (- (x * p2 (52 - e))) by ring. rewrite nearest_opp.
  replace (- nearest (x * p2 (52 - e)))%Z with (0 - nearest (x * p2 (52 - e)))%Z by lia. rewrite ofZ_sub. change (ofZ 0) with 0. ring.
Qed.

Section Doubles.
Variable fl : nat -> Qc -> option Qc.
Hypothesis FL : in_all_doubles fl.

Lemma fdiff_sym k a b : fsq fl k (fl 0 (a - b)) = fsq fl k (fl 0 (b - a)).
Proof.
  rewrite !(proj1 FL). unfold round_full. replace (b - a) with (- (a - b)) by ring. rewrite unbounded_opp, abs_opp. destruct (Qcltb _ _); [|reflexivity]. cbn [fsq]. f_equal. ring.
Qed.
Lemma fdist_sym a b : fdist_sq3 fl a b = fdist_sq3 fl b a.
Proof. unfold fdist_sq3. rewrite (fdiff_sym 11), (fdiff_sym 12), (fdiff_sym 13). reflexivity. Qed.
Lemma fl_0 k : fl k 0 = Some 0.
Proof. pose proof (fl_exact fl k 0 0 FL ltac:(cbn; lia) ltac:(lia)) as H. change (ofZ 0) with 0 in H. rewrite Qcmult_0_l in H. exact H. Qed.
Lemma fdist_self a : fdist_sq3 fl a a = Some 0.
Proof.
  unfold fdist_sq3. assert (forall k c, fsq fl k (fl 0 (c - c)) = Some 0) as S by (intros k c; replace (c - c) with 0 by ring; rewrite fl_0; cbn [fsq]; replace (0 * 0) with 0 by ring; apply fl_0).
  rewrite !S. cbn [fplus]. replace (0 + 0) with 0 by ring. rewrite fl_0. cbn [fplus]. replace (0 + 0) with 0 by ring. apply fl_0.
Qed.
Lemma away_k k a b c : between a b c -> ext_le (fsq fl k (fl 0 (a - b))) (fsq fl k (fl 0 (a - c))).
Proof.
  intros H. rewrite !(proj1 FL). unfold round_full.
  assert (Qcabs (unbounded (a - b)) <= Qcabs (unbounded (a - c))) as L.
  { destruct H as [[A B]|[A B]].
    - assert (unbounded (a - c) <= unbounded (a - b)) by (apply unbounded_mono; qc_lra). assert (unbounded (a - b) <= 0) by (apply unbounded_nonpos; qc_lra).
      do 2 (apply Qcabs_case; intros); qc_lra.
    - assert (unbounded (a - b) <= unbounded (a - c)) by (apply unbounded_mono; qc_lra). assert (0 <= unbounded (a - b)) by (apply unbounded_nonneg; qc_lra).
      do 2 (apply Qcabs_case; intros); qc_lra. }
  destruct (Qcltb (Qcabs (unbounded (a - b))) (p2 1024)) eqn:E, (Qcltb (Qcabs (unbounded (a - c))) (p2 1024)) eqn:F; cbn [fsq].
  - apply (fl_mono fl FL); [apply Qc_sq_nonneg|apply sq_le, L].
  - destruct (fl _ _); exact I.
  - qcb. qc_lra.
  - exact I.
Qed.
Lemma fplus_mono a a' b b' : (forall y, a = Some y -> 0 <= y) -> (forall y, b = Some y -> 0 <= y) -> ext_le a a' -> ext_le b b' -> ext_le (fplus fl a b) (fplus fl a' b').
Proof.
  intros A B HA HB. destruct a' as [x'|]; [|destruct (fplus fl a b); exact I]. destruct b' as [y'|]; [|destruct (fplus fl a b); exact I].
  destruct a as [x|]; [|contradiction]. destruct b as [y|]; [|contradiction]. cbn in *. specialize (A x eq_refl). specialize (B y eq_refl). apply (fl_mono fl FL); qc_lra.
Qed.
Lemma fdist_away a b c : in_between a b c -> ext_le (fdist_sq3 fl a b) (fdist_sq3 fl a c).
Proof.
  intros (X & Y & Z). unfold fdist_sq3. pose proof (away_k 11 _ _ _ X) as A. pose proof (away_k 12 _ _ _ Y) as B. pose proof (away_k 13 _ _ _ Z) as C.
  pose proof (fsq_nonneg fl FL 11 (fl 0 (vx a - vx b))) as N1. pose proof (fsq_nonneg fl FL 12 (fl 0 (vy a - vy b))) as N2. pose proof (fsq_nonneg fl FL 13 (fl 0 (vz a - vz b))) as N3.
  apply fplus_mono; [intros y; apply (fplus_nonneg fl FL); assumption|exact N3| |exact C]. apply fplus_mono; assumption.
Qed.
Lemma fplus_inf a : fplus fl a None = None.
Proof. destruct a; reflexivity. Qed.
Lemma fdist_positive a b s : distinct_enough b a -> fdist_sq3 fl a b = Some s -> 0 < s.
Proof.
  intros H E. unfold fdist_sq3 in E. destruct (fl 0 (vx a - vx b)) as [x|] eqn:X; [|discriminate]. destruct (fl 0 (vy a - vy b)) as [y|] eqn:Y; [|cbn [fsq] in E; rewrite fplus_inf in E; discriminate].
  destruct (fl 0 (vz a - vz b)) as [z|] eqn:Z; [|cbn [fsq] in E; rewrite fplus_inf in E; discriminate].
  cbn [fsq] in E. apply (fsq_large fl FL 11 (V3 x y z) s); [|exact E]. cbn [vx vy vz]. destruct H as [H|[H|H]]; [left|right; left|right; right]; eapply (diff_large fl FL); eassumption.
Qed.
End Doubles.

Lemma fdist_positive_top : forall fl, in_all_doubles fl -> forall a b, distinct_enough b a -> fdist_sq3 fl a b <> Some 0.
Proof. intros fl FL a b H E. pose proof (fdist_positive fl FL a b 0 H E). discriminate. Qed.
