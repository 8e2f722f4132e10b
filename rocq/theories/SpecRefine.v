(** Vocabulary for statements about refined knot vectors and control points of
    derivatives. *)
From Coq Require Import List ZArith QArith Qcanon.
From Verif Require Import Base ModelVec SpecNurbs.
Import ListNotations.
Open Scope Qc_scope.

(** different numbers of the set are at least 1e-8 (as a double) apart *)
Definition tol_1em8 : Qc := Q2Qc (3022314549036573 # 302231454903657293676544).
Definition coarse (T : Qc -> Prop) : Prop :=
  forall x y, T x -> T y -> x = y \/ tol_1em8 <= x - y \/ tol_1em8 <= y - x.

(** the values of [T] together with the middle of every two neighbours, [d] times *)
Fixpoint halved (T : Qc -> Prop) (d : nat) (x : Qc) : Prop :=
  match d with
  | O => T x
  | S d => halved T d x \/
      exists y z, halved T d y /\ halved T d z /\ y < z /\ (forall w, halved T d w -> w <= y \/ z <= w) /\ x = (y + z) / qc 2 1
  end.

(** where the user asks for new knots: at the given values or, without any, at the
    knots of the domain *)
Definition wanted (n p : nat) (U knot_list add_list : list Qc) (x : Qc) : Prop :=
  (match knot_list with [] => In x U /\ knot U p <= x /\ x <= knot U (n + 1) | _ => In x knot_list end) \/ In x add_list.

(** the same with the middles that a [density] above one adds *)
Definition asked (n p : nat) (U knot_list add_list : list Qc) (density : Z) : Qc -> Prop :=
  halved (wanted n p U knot_list add_list) (Z.to_nat (density - 1)).

(** sum of the control points, by one coordinate, times the basis *)
Definition combination (c : vec4 -> Qc) (U : list Qc) (n p : nat) (P : list vec4) (u : Qc) : Qc :=
  qsum (fun i => basis_at U n p u i * c (nth i P (V4 0 0 0 0))) (S n).
Definition coordinate (c : vec4 -> Qc) : Prop := c = wx \/ c = wy \/ c = wz \/ c = ww.

(** the control point [i] that putting the knot [u] into a curve gives, from two
    neighbours of the curve without; [U] are the knots with [u] put in *)
Definition put_in (U : list Qc) (p : nat) (u : Qc) (i : nat) (before here : vec4) : vec4 :=
  let a := (u - knot U i) / (knot U (i + p + 1) - knot U i) in
  let mix c := a * c here + (1 - a) * c before in
  V4 (mix wx) (mix wy) (mix wz) (mix ww).

(** at most [tol] apart *)
Definition within4 (a b : vec4) (tol : Qc) : Prop :=
  let sq x := x * x in
  0 <= tol /\ sq (wx a - wx b) + sq (wy a - wy b) + sq (wz a - wz b) + sq (ww a - ww b) <= tol * tol.

(** [A] up to [mid], then [x], then [B] one place later *)
Definition stitched (A : nat -> vec4) (mid : nat) (x : vec4) (B : nat -> vec4) (i : nat) : vec4 :=
  if Nat.ltb i mid then A i else if Nat.eqb i mid then x else B (i - 1)%nat.

(** the knots without the first [k] and the last [k] *)
Definition trimmed (k : nat) (U : list Qc) : list Qc := firstn (length U - 2 * k) (skipn k U).

(** f(t') = f(t) + (t' - t) d + o(t' - t) among the t' of [dom] *)
Definition has_slope (f : Qc -> Qc) (dom : Qc -> Prop) (t d : Qc) : Prop :=
  forall eps, 0 < eps -> exists delta, 0 < delta /\
    forall t', dom t' -> Qcabs (t' - t) <= delta -> Qcabs (f t' - (f t + (t' - t) * d)) <= eps * Qcabs (t' - t).

(** entry [i][j] of table [k][l] *)
Definition entry4 (t : list (list (list (list vec4)))) (k l i j : nat) : vec4 :=
  nth j (nth i (nth l (nth k t []) []) []) (V4 0 0 0 0).

(** sum of the control points G i j, by one coordinate, times the basis in u and in v *)
Definition surface_combination (c : vec4 -> Qc) (U V : list Qc) (n m p q : nat) (G : nat -> nat -> vec4) (u v : Qc) : Qc :=
  qsum (fun i => basis_at U n p u i * qsum (fun j => basis_at V m q v j * c (G i j)) (S m)) (S n).

(** the surface of the table [k][l] *)
Definition table_surface (c : vec4 -> Qc) (U V : list Qc) (n m p q : nat) (t : list (list (list (list vec4)))) (k l : nat) (u v : Qc) : Qc :=
  surface_combination c (trimmed k U) (trimmed l V) (n - k) (m - l) (p - k) (q - l) (entry4 t k l) u v.

(** Pascal's triangle *)
Fixpoint choose (n k : nat) : nat :=
  match n, k with
  | _, O => 1
  | O, S _ => 0
  | S n, S k => choose n k + choose n (S k)
  end.

(** entry [k][l] of a table *)
Definition entry2 (t : list (list vec4)) (k l : nat) : vec4 := nth l (nth k t []) (V4 0 0 0 0).

(** the quotient table [S] satisfies the product rule at (k, l) for the numerators of
    [W] by one coordinate: the (k, l) derivative of (weight times quotient) is that of
    the numerator *)
Definition leibniz (c : vec4 -> Qc) (W S : list (list vec4)) (k l : nat) : Prop :=
  qsum (fun i => qsum (fun j =>
      Qc_of_nat (choose k i) * Qc_of_nat (choose l j) * ww (entry2 W i j) * c (entry2 S (k - i) (l - j)))
    (Datatypes.S l)) (Datatypes.S k) = c (entry2 W k l).
Definition coordinate3 (c : vec4 -> Qc) : Prop := c = wx \/ c = wy \/ c = wz.
