(** Concrete cases for the theorems on Newton's method. *)
From Coq Require Import List ZArith Reals Lia Lra.
From Verif Require Import Base ModelNewton SpecNewton ProofCholesky ProofNewton.
Import ListNotations.
Open Scope R_scope.

Definition demo_A : rmat := [[2; 1]; [1; 3]].
Definition demo_indefinite : rmat := [[1; 2]; [2; 1]].

Lemma two_square a b c d : msq 2 [[a; b]; [c; d]].
Proof. split; [reflexivity|]. intros [|[|i]] H; try lia; reflexivity. Qed.
Lemma two_symmetric a b c : symmetric 2 [[a; b]; [b; c]].
Proof. intros [|[|i]] [|[|j]] Hi Hj; try lia; reflexivity. Qed.

Lemma demo_definite : positive_definite 2 demo_A.
Proof.
  intros x (i & Hi & N). unfold quad_form, demo_A, ment. cbn.
  assert (0 < x 0%nat * x 0%nat + x 1%nat * x 1%nat) as P.
  { destruct i as [|[|i]]; [| |lia]; [pose proof (Rsqr_pos_lt _ N); pose proof (Rle_0_sqr (x 1%nat))|pose proof (Rsqr_pos_lt _ N); pose proof (Rle_0_sqr (x 0%nat))]; unfold Rsqr in *; lra. }
  pose proof (Rle_0_sqr (x 0%nat + x 1%nat)) as Q. unfold Rsqr in Q. pose proof (Rle_0_sqr (x 1%nat)) as Q2. unfold Rsqr in Q2. nra.
Qed.
Lemma demo_not_definite : ~ positive_definite 2 demo_indefinite.
Proof.
  intros P. specialize (P (fun k => if Nat.eqb k 0 then 1 else -1)). unfold quad_form, demo_indefinite, ment in P. cbn in P.
  assert (exists i, (i < 2)%nat /\ (if Nat.eqb i 0 then 1 else -1) <> 0) as E by (exists 0%nat; split; [lia|cbn; lra]). specialize (P E). lra.
Qed.

Lemma demo_solves y0 x : length y0 = 2%nat -> length x = 2%nat ->
  exists x', solve_linear 2 y0 demo_A [5; 10] x = Ok (true, x') /\ vat x' 0 = 1 /\ vat x' 1 = 3.
Proof.
  intros Hy Hx. destruct (solve_top 2 y0 demo_A [5; 10] x (two_square 2 1 1 3) (two_symmetric 2 1 3) eq_refl Hx Hy) as (ok & x' & E & L & PD & S & _).
  assert (ok = true) as -> by (apply PD; exact demo_definite). exists x'. split; [exact E|]. specialize (S eq_refl).
  pose proof (S 0%nat ltac:(lia)) as S0. pose proof (S 1%nat ltac:(lia)) as S1. unfold demo_A, ment in S0, S1. cbn in S0, S1. unfold vat in S0, S1 |- *. cbn [nth] in S0, S1. lra.
Qed.
Lemma demo_rejects y0 : length y0 = 2%nat -> solve_linear 2 y0 demo_indefinite [5; 10] [7; 8] = Ok (false, [7; 8]).
Proof.
  intros Hy. destruct (solve_top 2 y0 demo_indefinite [5; 10] [7; 8] (two_square 1 2 2 1) (two_symmetric 1 2 1) eq_refl eq_refl Hy) as (ok & x' & E & L & PD & _ & F).
  destruct ok; [exfalso; apply demo_not_definite; apply PD; reflexivity|]. rewrite E, (F eq_refl). reflexivity.
Qed.

Lemma demo_low : forall x : nat -> R, 1 * rsum (fun i => x i * x i) 2 <= quad_form 2 demo_A x.
Proof.
  intros x. unfold quad_form, demo_A, ment. cbn. pose proof (Rle_0_sqr (x 0%nat + x 1%nat)) as Q. unfold Rsqr in Q.
  pose proof (Rle_0_sqr (x 1%nat)) as Q2. unfold Rsqr in Q2. nra.
Qed.
(** one step from (101, 203) ends within a thousandth of the minimum (1, 3) *)
Lemma demo_newton y0 : (forall k, length (y0 k) = 2%nat) ->
  exists p, newtonsMethod 2 y0 (quadratic 2 0 [-5; -10] demo_A) [101; 203] 0 1 = Ok p /\ dist2 2 p [1; 3] <= 1 / 1000000.
Proof.
  intros Hy. destruct (convex_top 2 0 [-5; -10] demo_A [1; 3] 1 y0 [101; 203] 0 1 (two_square 2 1 1 3) (two_symmetric 2 1 3) Rlt_0_1 demo_low) as (p & E & L & B).
  - intros [|[|i]] H; try lia; unfold demo_A, ment, vat; cbn; ring.
  - exact Hy.
  - reflexivity.
  - exists p. split; [exact E|].
    assert (dist2 2 [101; 203] [1; 3] = 50000) as D by (unfold dist2, vat; cbn; ring). rewrite D in B.
    assert (0 <= dist2 2 p [1; 3]) as P by (apply rsum_nonneg; intros; apply Rle_0_sqr). set (d := dist2 2 p [1; 3]) in *.
    destruct B as [B|B].
    + cbn [pow Nat.mul Nat.add] in B. pose proof pos_1em6 as P6. assert (r_1em6 <= 1 / 999999) as P7 by (unfold r_1em6, rlit; lra).
      assert (r_1em6 * r_1em6 <= 1 / 999999 * (1 / 999999)) as P8 by (apply Rmult_le_compat; lra). nra.
    + cbn [rsum] in B. rewrite !Rmult_0_l in B. cbn [pow] in B. nra.
Qed.

Lemma demo_differences : symmetric 2 demo_A /\ length [101; 203] = 2%nat /\ r_1em7 <> 0.
Proof. split; [exact (two_symmetric 2 1 3)|]. split; [reflexivity|]. unfold r_1em7, rlit. lra. Qed.
