(** Specification of B-spline and NURBS curves: the textbook (Cox - de Boor)
    definition, written without reference to the program. *)
From Coq Require Import List ZArith QArith Qcanon Bool.
From Verif Require Import Base ModelVec.
Import ListNotations.
Open Scope Qc_scope.

(** sum of f 0, ..., f (n-1) *)
Fixpoint qsum (f : nat -> Qc) (n : nat) : Qc :=
  match n with O => 0 | S m => qsum f m + f m end.

(** i-th knot; past the end, the last one *)
Definition knot (U : list Qc) (i : nat) : Qc := nth i U (last U 0).

Definition sorted (U : list Qc) : Prop :=
  forall i j, (i <= j)%nat -> (j < length U)%nat -> nth i U 0 <= nth j U 0.

(** Cox - de Boor recursion over the knot function [U]. [last] is the index of
    the last control point: the domain ends at U (last + 1), and there the
    last basis piece is used, so that the domain is closed. A quotient with
    zero denominator counts as zero (x / 0 = 0 in Qc). *)
Fixpoint bspline (U : nat -> Qc) (last p i : nat) (u : Qc) : Qc :=
  match p with
  | O => if (if u =? U (S last) then Nat.eqb i last else (U i <=? u) && (u <? U (S i))) then 1 else 0
  | S q => (u - U i) / (U (i + p)%nat - U i) * bspline U last q i u
           + (U (i + p + 1)%nat - u) / (U (i + p + 1)%nat - U (i + 1)%nat) * bspline U last q (i + 1) u
  end.

(** knot vector and degree of a curve with n + 1 control points *)
Definition valid_knots (n p : nat) (U : list Qc) : Prop :=
  (p <= n)%nat /\ length U = (n + p + 2)%nat /\ sorted U /\ knot U n < knot U (n + 1).

(** the parameters the curve is defined for *)
Definition in_domain (n p : nat) (U : list Qc) (u : Qc) : Prop := knot U p <= u /\ u <= knot U (n + 1).

(** ends with multiplicity degree + 1 *)
Definition clamped (n p : nat) (U : list Qc) : Prop :=
  (forall i, (i <= p)%nat -> knot U i = knot U 0) /\
  (forall i, (n + 1 <= i)%nat -> (i <= n + p + 1)%nat -> knot U i = knot U (n + 1)).

(** denominators and numerators of the rational curve
    C(u) = sum N_i(u) w_i P_i / sum N_i(u) w_i, with P_i = (x, y, z) of the i-th
    control point *)
Definition basis_at (U : list Qc) (n p : nat) (u : Qc) (i : nat) : Qc := bspline (knot U) n p i u.
Definition weight_at (U : list Qc) (n p : nat) (P : list vec4) (u : Qc) : Qc :=
  qsum (fun i => basis_at U n p u i * ww (nth i P (V4 0 0 0 0))) (S n).
Definition weighted_at (c : vec4 -> Qc) (U : list Qc) (n p : nat) (P : list vec4) (u : Qc) : Qc :=
  qsum (fun i => basis_at U n p u i * ww (nth i P (V4 0 0 0 0)) * c (nth i P (V4 0 0 0 0))) (S n).
Definition rational_point (U : list Qc) (n p : nat) (P : list vec4) (u : Qc) : vec3 :=
  let w := weight_at U n p P u in
  V3 (weighted_at wx U n p P u / w) (weighted_at wy U n p P u / w) (weighted_at wz U n p P u / w).

(** every knot either is t or is distinguishable from it by the library's
    tolerance 1e-12 (as a double) *)
Definition tol12 : Qc := Q2Qc (4951760157141521 # 4951760157141521099596496896).
Definition separated (U : list Qc) (t : Qc) : Prop :=
  forall x, In x U -> x = t \/ tol12 < x - t \/ tol12 < t - x.

(** number of knots equal to t *)
Definition multiplicity (U : list Qc) (t : Qc) : nat := length (filter (Qceqb t) U).

Definition unit_weights (P : list vec4) : Prop := forall q, In q P -> ww q = 1.
Definition positive_weights (P : list vec4) : Prop := forall q, In q P -> 0 < ww q.

(** the point is a convex combination of at most p + 1 consecutive points *)
Definition in_hull_of_run (p : nat) (P : list vec4) (pt : vec3) : Prop :=
  exists (a : nat) (m : nat -> Qc),
    (a + p < length P)%nat /\
    (forall j, (j <= p)%nat -> 0 <= m j) /\ qsum m (S p) = 1 /\
    vx pt = qsum (fun j => m j * wx (nth (a + j) P (V4 0 0 0 0))) (S p) /\
    vy pt = qsum (fun j => m j * wy (nth (a + j) P (V4 0 0 0 0))) (S p) /\
    vz pt = qsum (fun j => m j * wz (nth (a + j) P (V4 0 0 0 0))) (S p).

Definition xyz (q : vec4) : vec3 := V3 (wx q) (wy q) (wz q).
