(** Specifications for the numeric helpers: counting subsets, integrals of
    cubics, unimodal functions, matrices as functions of two indices. *)
From Coq Require Import List ZArith QArith Qcanon Sorted.
From Verif Require Import Base ModelNumeric SpecNurbs.
Import ListNotations.
Open Scope Qc_scope.

(** a k-element subset of {0, ..., n-1}, written as an increasing list *)
Definition subset_of (n k : nat) (s : list nat) : Prop :=
  length s = k /\ StronglySorted lt s /\ forall x, In x s -> (x < n)%nat.
(** there are exactly [count] of them *)
Definition subset_count (n k : nat) (count : Z) : Prop :=
  exists l, NoDup l /\ (forall s, In s l <-> subset_of n k s) /\ Z.of_nat (length l) = count.

Definition cubic (c0 c1 c2 c3 x : Qc) : Qc := c0 + c1 * x + c2 * x * x + c3 * x * x * x.
(** the integral of a cubic by its antiderivative *)
Definition cubic_integral (c0 c1 c2 c3 a b : Qc) : Qc :=
  let F x := c0 * x + c1 * x * x / qc 2 1 + c2 * x * x * x / qc 3 1 + c3 * x * x * x * x / qc 4 1 in F b - F a.

(** the polynomial with the given coefficients, lowest first, and its integral *)
Fixpoint poly (cs : list Qc) (x : Qc) : Qc := match cs with [] => 0 | c :: t => c + x * poly t x end.
Definition poly_integral (cs : list Qc) (a b : Qc) : Qc :=
  let F x := x * poly (map (fun p => snd p / Qc_of_nat (S (fst p))) (combine (seq 0 (length cs)) cs)) x in F b - F a.

(** x is between a and b, in either order *)
Definition between (a b x : Qc) : Prop := (a <= x /\ x <= b) \/ (b <= x /\ x <= a).

(** f falls up to xs and rises after it, on [lo, hi] *)
Definition unimodal (f : Qc -> Qc) (lo hi xs : Qc) : Prop :=
  lo <= xs /\ xs <= hi /\
  (forall x y, lo <= x -> x < y -> y <= xs -> f y < f x) /\
  (forall x y, xs <= x -> x < y -> y <= hi -> f x < f y).

(** a matrix object is well formed when it holds rows * cols numbers *)
Definition md_ok (m : matd) : Prop := length (md_data m) = (md_rows m * md_cols m)%nat.
Definition entry (m : matd) (i j : nat) : Qc := nth (i * md_cols m + j) (md_data m) 0.
Definition delta (i j : nat) : Qc := if Nat.eqb i j then 1 else 0.

(** b is an inverse of the n x n matrix a on both sides *)
Definition inverse_of (n : nat) (a b : matd) : Prop :=
  (forall i j, (i < n)%nat -> (j < n)%nat -> qsum (fun k => entry a i k * entry b k j) n = delta i j) /\
  (forall i j, (i < n)%nat -> (j < n)%nat -> qsum (fun k => entry b i k * entry a k j) n = delta i j).
(** a non-zero vector is mapped to zero *)
Definition singular (n : nat) (a : matd) : Prop :=
  exists x : nat -> Qc, (exists i, (i < n)%nat /\ x i <> 0) /\ forall i, (i < n)%nat -> qsum (fun k => entry a i k * x k) n = 0.
