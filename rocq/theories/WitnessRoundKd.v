(** Points whose distances doubles cannot tell apart. *)
From Coq Require Import List ZArith QArith Qcanon Bool Lia Lqa.
From Verif Require Import Base BaseFacts ModelVec ModelKd ModelRoundKd SpecKd SpecRound SpecRoundKd ProofKd ProofRound ProofRoundDouble ProofRoundHull ProofRoundFull ProofRoundKd.
Import ListNotations.
Open Scope Qc_scope.

Definition orig : vec3 := V3 0 0 0.
(** 2^27 to the right, and one up *)
Definition right27 : vec3 := V3 (Qc_of_Z (2 ^ 27)) 0 0.
Definition right27up : vec3 := V3 (Qc_of_Z (2 ^ 27)) 1 0.
(** almost at the origin *)
Definition tiny : vec3 := V3 (p2 (-600)) 0 0.

Lemma full_of x m e : (Z.abs m <= 2 ^ 53)%Z -> (-1074 <= e <= 960)%Z -> x = ofZ m * p2 e -> round_full x = Some (ofZ m * p2 e).
Proof. intros A B ->. apply full_exact; assumption. Qed.
Lemma fl_of fl k x m e : in_all_doubles fl -> (Z.abs m <= 2 ^ 53)%Z -> (-1074 <= e <= 960)%Z -> x = ofZ m * p2 e -> fl k x = Some (ofZ m * p2 e).
Proof. intros FL A B ->. apply fl_exact; assumption. Qed.
Ltac canon := apply Qc_is_canon; vm_compute; reflexivity.

Lemma far_sum : round_full (ofZ 1 * p2 54 + ofZ 1 * p2 0) = Some (ofZ 1 * p2 54).
Proof.
  unfold round_full. assert (unbounded (ofZ 1 * p2 54 + ofZ 1 * p2 0) = ofZ 1 * p2 54) as -> by canon.
  destruct (Qcltb _ _) eqn:E; [reflexivity|]. vm_compute in E. discriminate E.
Qed.
Lemma tiny_sum : round_full (p2 (-1200)) = Some 0.
Proof. unfold round_full. assert (unbounded (p2 (-1200)) = 0) as -> by canon. reflexivity. Qed.

Section W.
Variable fl : nat -> Qc -> option Qc.
Hypothesis FL : in_all_doubles fl.

Lemma zero_of k : fl k 0 = Some 0.
Proof. rewrite (fl_of fl k 0 0 0 FL) by (cbn; lia || canon). f_equal. Qed.
Lemma dist_right : fdist_sq3 fl orig right27 = Some (ofZ 1 * p2 54).
Proof.
  unfold fdist_sq3, orig, right27. cbn [vx vy vz]. replace (0 - 0) with 0 by ring. rewrite !zero_of. cbn [fsq]. rewrite Qcmult_0_l, !zero_of.
  rewrite (fl_of fl 0 (0 - Qc_of_Z (2 ^ 27)) (-1) 27 FL) by (cbn; lia || canon). cbn [fsq].
  rewrite (fl_of fl 11 _ 1 54 FL) by (cbn; lia || canon). cbn [fplus]. rewrite !Qcplus_0_r.
  rewrite (fl_of fl 0 _ 1 54 FL) by (cbn; lia || reflexivity). cbn [fplus]. rewrite !Qcplus_0_r. apply fl_of; [exact FL|cbn; lia|lia|reflexivity].
Qed.
Lemma dist_rightup : fdist_sq3 fl orig right27up = Some (ofZ 1 * p2 54).
Proof.
  unfold fdist_sq3, orig, right27up. cbn [vx vy vz]. replace (0 - 0) with 0 by ring. rewrite !zero_of. cbn [fsq]. rewrite Qcmult_0_l, !zero_of.
  rewrite (fl_of fl 0 (0 - Qc_of_Z (2 ^ 27)) (-1) 27 FL) by (cbn; lia || canon). cbn [fsq].
  rewrite (fl_of fl 0 (0 - 1) (-1) 0 FL) by (cbn; lia || canon). cbn [fsq].
  rewrite (fl_of fl 11 _ 1 54 FL) by (cbn; lia || canon). rewrite (fl_of fl 12 _ 1 0 FL) by (cbn; lia || canon). cbn [fplus].
  rewrite (proj1 FL), far_sum. cbn [fplus]. rewrite !Qcplus_0_r. apply fl_of; [exact FL|cbn; lia|lia|reflexivity].
Qed.
Lemma plane_right : fsq fl 0 (fl 0%nat (0 - Qc_of_Z (2 ^ 27))) = Some (ofZ 1 * p2 54).
Proof. rewrite (fl_of fl 0 (0 - Qc_of_Z (2 ^ 27)) (-1) 27 FL) by (cbn; lia || canon). cbn [fsq]. apply fl_of; [exact FL|cbn; lia|lia|canon]. Qed.

Lemma flt_irrefl a : flt a a = false.
Proof. destruct a as [x|]; [|reflexivity]. cbn. destruct (x <? x) eqn:E; [|reflexivity]. qcb. exfalso. qc_lra. Qed.

Lemma wrong_neighbour nth_elt : exists s, kd_run nth_elt kd_init [KInsert right27up; KInsert right27] = Some s /\ fkd_nearest fl s orig = Ok right27up.
Proof.
  exists (Kd (KNode right27up AX KNull (KNode right27 AY KNull KNull)) 2). split; [reflexivity|].
  unfold fkd_nearest. cbn [kroot fnearestRec fst snd]. rewrite flt_irrefl.
  change (coord orig AX) with 0. change (coord right27up AX) with (Qc_of_Z (2 ^ 27)).
  assert (0 <? Qc_of_Z (2 ^ 27) = true) as -> by reflexivity. cbn [snd]. rewrite plane_right, dist_rightup, flt_irrefl. reflexivity.
Qed.

Lemma dist_tiny : fdist_sq3 fl orig tiny = Some 0.
Proof.
  unfold fdist_sq3, orig, tiny. cbn [vx vy vz]. replace (0 - 0) with 0 by ring. rewrite !zero_of. cbn [fsq]. rewrite Qcmult_0_l, !zero_of.
  rewrite (fl_of fl 0 (0 - p2 (-600)) (-1) (-600) FL) by (cbn; lia || (change (ofZ (-1)) with (- (1)); ring)). cbn [fsq].
  assert (ofZ (-1) * p2 (-600) * (ofZ (-1) * p2 (-600)) = p2 (-1200)) as ->.
  { change (ofZ (-1)) with (- (1)). change (-1200)%Z with (-600 + -600)%Z. rewrite p2_add. ring. }
  assert (fplus fl (fl 11%nat (p2 (-1200))) (Some 0) = Some 0) as ->.
  { destruct (proj2 FL 11%nat) as [H|H]; rewrite H; [rewrite tiny_sum|]; cbn [fplus]; rewrite Qcplus_0_r; [apply zero_of|]. rewrite (proj1 FL). exact tiny_sum. }
  cbn [fplus]. rewrite Qcplus_0_r. apply zero_of.
Qed.
Lemma plane_tiny : fsq fl 0 (fl 0%nat (0 - p2 (-600))) = Some 0.
Proof.
  rewrite (fl_of fl 0 (0 - p2 (-600)) (-1) (-600) FL) by (cbn; lia || (change (ofZ (-1)) with (- (1)); ring)). cbn [fsq].
  assert (ofZ (-1) * p2 (-600) * (ofZ (-1) * p2 (-600)) = p2 (-1200)) as ->.
  { change (ofZ (-1)) with (- (1)). change (-1200)%Z with (-600 + -600)%Z. rewrite p2_add. ring. }
  rewrite (proj1 FL). exact tiny_sum.
Qed.
Lemma missed_target nth_elt : exists s, kd_run nth_elt kd_init [KInsert tiny; KInsert orig] = Some s /\ fkd_nearest fl s orig = Ok tiny.
Proof.
  assert (p2 (-600) <> 0 /\ 0 <? p2 (-600) = true) as (N & L).
  { pose proof (p2_pos (-600)) as P. split; [intros E; rewrite E in P; discriminate P|]. destruct (0 <? p2 (-600)) eqn:E; [reflexivity|qcb; qc_lra]. }
  exists (Kd (KNode tiny AX (KNode orig AY KNull KNull) KNull) 2). split.
  { cbn [kd_run kd_step kd_insert kd_init kroot ksize insertRec axis_of_depth]. change (coord orig AX) with 0. unfold kd_insert. cbn [kroot ksize insertRec kd_init].
    change (axis_of_depth 0) with AX. cbn [insertRec]. change (coord orig AX) with 0. change (coord tiny AX) with (p2 (-600)). rewrite L. reflexivity. }
  unfold fkd_nearest. cbn [kroot fnearestRec fst snd]. rewrite flt_irrefl.
  change (coord orig AX) with 0. change (coord tiny AX) with (p2 (-600)). rewrite L. rewrite dist_tiny. cbn [snd].
  assert (flt (fdist_sq3 fl orig orig) (Some 0) = false) as ->.
  { unfold fdist_sq3, orig. cbn [vx vy vz]. replace (0 - 0) with 0 by ring. rewrite !zero_of. cbn [fsq]. rewrite Qcmult_0_l, !zero_of. cbn [fplus]. rewrite Qcplus_0_l, zero_of. cbn [fplus]. rewrite Qcplus_0_l, zero_of. apply flt_irrefl. }
  change (coord orig AY) with 0. assert (0 <? 0 = false) as -> by reflexivity. cbn [snd].
  replace (0 - 0) with 0 by ring. rewrite !zero_of. cbn [fsq]. rewrite Qcmult_0_l, !zero_of. rewrite flt_irrefl. cbn [snd]. rewrite plane_tiny, flt_irrefl. reflexivity.
Qed.
End W.

Lemma tiny_far : 0 < dist2 orig tiny /\ dist2 orig orig = 0.
Proof. split; [|reflexivity]. unfold dist2, orig, tiny. cbn [vx vy vz]. pose proof (p2_pos (-600)) as P. assert (0 < p2 (-600) * p2 (-600)) by (apply mul_pos; exact P). 
  replace ((0 - p2 (-600)) ^ 2 + (0 - 0) ^ 2 + (0 - 0) ^ 2) with (p2 (-600) * p2 (-600)) by (cbn [Qcpower]; ring). assumption. Qed.
Lemma up_farther : dist2 orig right27 < dist2 orig right27up. Proof. reflexivity. Qed.

Lemma never_full : in_all_doubles full_never. Proof. split; [reflexivity|]. intros k. left. reflexivity. Qed.
Lemma always_full : in_all_doubles full_always. Proof. split; [reflexivity|]. intros [|k]; [left|right]; reflexivity. Qed.
