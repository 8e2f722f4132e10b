(** Planar geometry used to state the properties of polygons. *)
From Coq Require Import List ZArith QArith Qcanon Permutation.
From Verif Require Import Base ModelVec SpecNurbs.
Import ListNotations.
Open Scope Qc_scope.

Definition pt (P : list vec2) (i : nat) : vec2 := nth i P (V2 0 0).

(** p is a convex combination of the points *)
Definition in_hull (P : list vec2) (p : vec2) : Prop :=
  exists w : nat -> Qc, (forall i, 0 <= w i) /\ qsum w (length P) = 1 /\
    ux p = qsum (fun i => w i * ux (pt P i)) (length P) /\ uy p = qsum (fun i => w i * uy (pt P i)) (length P).
Definition hulls_meet (P Q : list vec2) : Prop := exists p, in_hull P p /\ in_hull Q p.

(** a line with normal d and all of P on one closed side, all of Q on the other *)
Definition separates (d : vec2) (P Q : list vec2) : Prop :=
  exists c, (forall p, In p P -> v2dot p d <= c) /\ (forall q, In q Q -> c <= v2dot q d).

(** twice the signed area of the triangle, positive when counterclockwise *)
Definition turn (a b c : vec2) : Qc := (ux b - ux a) * (uy c - uy a) - (uy b - uy a) * (ux c - ux a).
(** vertices of a strictly convex polygon in counterclockwise order *)
Definition convex_ccw (P : list vec2) : Prop :=
  (3 <= length P)%nat /\ forall i j k, (i < j)%nat -> (j < k)%nat -> (k < length P)%nat -> 0 < turn (pt P i) (pt P j) (pt P k).
Definition convex_polygon (P : list vec2) : Prop := convex_ccw P \/ convex_ccw (rev P).

(** successive vertices, the last followed by the first *)
Definition succ_in (P : list vec2) (i : nat) : nat := if Nat.eqb (S i) (length P) then 0%nat else S i.
Definition no_repeat (P : list vec2) : Prop := forall i, (i < length P)%nat -> pt P (succ_in P i) <> pt P i.
(** on the left of every edge *)
Definition left_of_all (P : list vec2) (p : vec2) : Prop := forall i, (i < length P)%nat -> 0 < turn (pt P i) (pt P (succ_in P i)) p.

(** coordinates small enough for all projections to be finite doubles *)
Definition moderate (P : list vec2) : Prop :=
  let B := Qc_of_Z (2 ^ 500) in forall p, In p P -> - B <= ux p /\ ux p <= B /\ - B <= uy p /\ uy p <= B.

(** std::sort: a permutation in which no element comes before an earlier one,
    whenever the comparison is a strict weak order on the list *)
Definition strict_weak_order {A} (cmp : A -> A -> bool) (l : list A) : Prop :=
  (forall a, In a l -> cmp a a = false) /\
  (forall a b c, In a l -> In b l -> In c l -> cmp a b = true -> cmp b c = true -> cmp a c = true) /\
  (forall a b c, In a l -> In b l -> In c l -> cmp a b = false -> cmp b a = false -> cmp b c = false -> cmp c b = false -> cmp a c = false /\ cmp c a = false).
Definition sorts {A} (sort : (A -> A -> bool) -> list A -> list A) : Prop :=
  forall cmp l, strict_weak_order cmp l -> Permutation (sort cmp l) l /\ ForallOrdPairs (fun a b => cmp b a = false) (sort cmp l).
(** distinct points, no three of them nearly collinear, no two of them nearly but
    not exactly at the same height *)
Definition general_position (eps : Qc) (P : list vec2) : Prop :=
  NoDup P /\
  (forall a b c, In a P -> In b P -> In c P -> a <> b -> a <> c -> b <> c -> eps <= Qcabs (turn a b c)) /\
  (forall a b, In a P -> In b P -> uy a = uy b \/ eps <= Qcabs (uy a - uy b)).
(** three points are collinear or clearly not so, and the same for heights *)
Definition clear_position (eps : Qc) (P : list vec2) : Prop :=
  (forall a b c, In a P -> In b P -> In c P -> turn a b c = 0 \/ eps <= Qcabs (turn a b c)) /\
  (forall a b, In a P -> In b P -> uy a = uy b \/ eps <= Qcabs (uy a - uy b)).
(** [q] is higher than [p], or as high and further to the right *)
Definition above (p q : vec2) : Prop := uy p < uy q \/ (uy p = uy q /\ ux p < ux q).
Definition not_collinear (P : list vec2) : Prop := exists a b c, In a P /\ In b P /\ In c P /\ turn a b c <> 0.
