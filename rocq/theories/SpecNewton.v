(** Linear algebra over the reals with sums over indices. *)
From Coq Require Import List Reals.
Import ListNotations.
Open Scope R_scope.

Fixpoint rsum (f : nat -> R) (n : nat) : R := match n with O => 0 | S k => rsum f k + f k end.

(** component i of a vector, entry (i, j) of a matrix given by rows *)
Definition vat (v : list R) (i : nat) : R := nth i v 0.
Definition ment (m : list (list R)) (i j : nat) : R := nth j (nth i m []) 0.
(** an n x n matrix *)
Definition msq (n : nat) (m : list (list R)) : Prop := length m = n /\ forall i, (i < n)%nat -> length (nth i m []) = n.
Definition symmetric (n : nat) (m : list (list R)) : Prop := forall i j, (i < n)%nat -> (j < n)%nat -> ment m i j = ment m j i.
(** lower triangular with a positive diagonal *)
Definition lower_positive (n : nat) (m : list (list R)) : Prop :=
  (forall i j, (i < n)%nat -> (j < n)%nat -> (i < j)%nat -> ment m i j = 0) /\ (forall i, (i < n)%nat -> 0 < ment m i i).
(** x^T m x *)
Definition quad_form (n : nat) (m : list (list R)) (x : nat -> R) : R := rsum (fun i => rsum (fun j => x i * ment m i j * x j) n) n.
Definition positive_definite (n : nat) (m : list (list R)) : Prop :=
  forall x, (exists i, (i < n)%nat /\ x i <> 0) -> 0 < quad_form n m x.
(** m x = b *)
Definition solves (n : nat) (m : list (list R)) (x b : list R) : Prop :=
  forall i, (i < n)%nat -> rsum (fun j => ment m i j * vat x j) n = vat b i.

(** squared distance *)
Definition dist2 (n : nat) (p q : list R) : R := rsum (fun i => (vat p i - vat q i) * (vat p i - vat q i)) n.

(** the function c + b.x + x^T A x / 2 *)
Definition quadratic (n : nat) (c : R) (b : list R) (A : list (list R)) (x : list R) : R :=
  c + rsum (fun i => vat b i * vat x i) n + quad_form n A (vat x) / 2.
