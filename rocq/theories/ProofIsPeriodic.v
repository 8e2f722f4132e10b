(** is_periodic compares the last control points with the first ones. *)
From Coq Require Import List ZArith Bool Lia.
From Verif Require Import Base ModelSerialization SpecSerialization SpecIsPeriodic ProofSerialization.
Import ListNotations.
Open Scope Z_scope.

Lemma low_bits d : d mod 2 ^ 63 = exponent d * 2 ^ 52 + fraction d.
Proof.
  unfold exponent, fraction. change (2 ^ 63) with (2 ^ 52 * 2 ^ 11). rewrite Z.rem_mul_r by lia. lia.
Qed.
Lemma fields d : 0 <= exponent d < 2048 /\ 0 <= fraction d < 2 ^ 52.
Proof. unfold exponent, fraction. split; apply Z.mod_pos_bound; lia. Qed.
Lemma nan_ok d : dbl_is_nan d = true <-> not_a_number d.
Proof.
  unfold dbl_is_nan, not_a_number. rewrite Z.ltb_lt, low_bits. pose proof (fields d). change 0x7FF0000000000000 with (2047 * 2 ^ 52). change (2 ^ 52) with 4503599627370496 in *. lia.
Qed.
Lemma zero_ok d : dbl_is_zero d = true <-> is_zero d.
Proof. unfold dbl_is_zero, is_zero. rewrite Z.eqb_eq, low_bits. pose proof (fields d). change (2 ^ 52) with 4503599627370496 in *. lia. Qed.
Lemma ne_ok a b : dbl_ne a b = false <-> same_number a b.
Proof.
  unfold dbl_ne, same_number. rewrite <- !nan_ok, <- !zero_ok. destruct (dbl_is_nan a), (dbl_is_nan b); cbn [orb]; try (split; [discriminate|intros (A & B & _); exfalso; auto; congruence]).
  destruct (dbl_is_zero a), (dbl_is_zero b); cbn [andb]; rewrite ?negb_false_iff, ?Z.eqb_eq; intuition congruence.
Qed.
Lemma point_ok p q : vec4_ne p q = false <-> same_point p q.
Proof. unfold vec4_ne, same_point. rewrite !orb_false_iff, !ne_ok. tauto. Qed.
Lemma periodic_from cps degree : 0 <= degree <= Z.of_nat (length cps) -> forall fuel j, (Z.of_nat (j + fuel) = degree) ->
  exists b, is_periodic_from cps degree j fuel = Ok b /\
    (b = true <-> forall i, (j <= i < j + fuel)%nat -> exists p q, nth_error cps i = Some p /\ nth_error cps (length cps - Z.to_nat degree + i) = Some q /\ same_point p q).
Proof.
  intros D. induction fuel as [|fuel IH]; intros j E; cbn [is_periodic_from].
  - exists true. split; [reflexivity|]. split; [intros _ i Hi; lia|reflexivity].
  - destruct (nth_error cps j) as [p|] eqn:Ep; [|apply nth_error_None in Ep; lia]. destruct (nth_error cps (length cps - Z.to_nat degree + j)) as [q|] eqn:Eq; [|apply nth_error_None in Eq; lia].
    unfold get. rewrite Ep. cbn [of_option bind]. unfold getZ. destruct (Z.ltb_spec (Z.of_nat (length cps) - degree + Z.of_nat j) 0) as [B|_]; [lia|].
    unfold get. replace (Z.to_nat (Z.of_nat (length cps) - degree + Z.of_nat j)) with (length cps - Z.to_nat degree + j)%nat by lia. rewrite Eq. cbn [of_option bind].
    destruct (vec4_ne p q) eqn:V.
    + exists false. split; [reflexivity|]. split; [discriminate|]. intros H. destruct (H j ltac:(lia)) as (p' & q' & P1 & P2 & P3). rewrite Ep in P1. rewrite Eq in P2. injection P1 as <-. injection P2 as <-. apply point_ok in P3. congruence.
    + destruct (IH (S j) ltac:(lia)) as (b & E1 & E2). exists b. split; [exact E1|]. rewrite E2. split; intros H i Hi.
      * destruct (Nat.eq_dec i j) as [->|N]; [|apply H; lia]. exists p, q. split; [exact Ep|]. split; [exact Eq|]. apply point_ok. exact V.
      * apply H. lia.
Qed.
Lemma periodic_exact c : usable c -> exists b, is_periodic c = Ok b /\ (b = true <-> repeats_start c).
Proof.
  intros (D & _). unfold is_periodic. destruct (Z_le_gt_dec 0 (c_degree c)) as [P|P].
  - destruct (periodic_from (c_cps c) (c_degree c) ltac:(lia) (Z.to_nat (c_degree c)) 0 ltac:(lia)) as (b & E1 & E2). exists b. split; [exact E1|]. rewrite E2. split; intros H i Hi; apply H; lia.
  - replace (Z.to_nat (c_degree c)) with 0%nat by lia. exists true. split; [reflexivity|]. split; [intros _ j J; lia|reflexivity].
Qed.
Lemma periodic_short c : Z.of_nat (length (c_cps c)) < c_degree c -> is_periodic c = UB.
Proof.
  intros H. unfold is_periodic. destruct (Z.to_nat (c_degree c)) as [|f] eqn:E; [lia|]. cbn [is_periodic_from]. unfold get. destruct (nth_error (c_cps c) 0) as [a|]; cbn [of_option bind]; [|reflexivity].
  unfold getZ. destruct (Z.ltb_spec (Z.of_nat (length (c_cps c)) - c_degree c + Z.of_nat 0) 0); [reflexivity|lia].
Qed.
