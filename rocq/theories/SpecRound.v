(** Specification vocabulary for rounding errors (C232-C235). *)
From Coq Require Import List ZArith QArith Qcanon Qpower Bool.
From Verif Require Import Base ModelVec ModelAabb.
Open Scope Qc_scope.

(** [fl] rounds with relative error at most [u], whenever it delivers a number:
    the standard model of floating-point arithmetic, for every kind [k] of
    operation. For doubles u = 2^-53. *)
Definition rounds (u : Qc) (fl : nat -> Qc -> option Qc) : Prop :=
  0 <= u /\ u < 1 /\ forall k x y, fl k x = Some y -> Qcabs (y - x) <= u * Qcabs x.

(** [y] is [x] up to a factor between (1-u)^k and (1-u)^-k. *)
Definition same_up_to (u : Qc) (k : nat) (x y : Qc) : Prop := (1 - u) ^ k * x <= y /\ (1 - u) ^ k * y <= x.

(** [y] differs from [x] by at most ((1-u)^-k - 1) B. *)
Definition differs_at_most (u : Qc) (k : nat) (B x y : Qc) : Prop :=
  (1 - u) ^ k * Qcabs (y - x) <= (1 - (1 - u) ^ k) * B.
Definition point_differs_at_most (u : Qc) (k : nat) (B : Qc) (p q : vec3) : Prop :=
  differs_at_most u k B (vx p) (vx q) /\ differs_at_most u k B (vy p) (vy q) /\ differs_at_most u k B (vz p) (vz q).

(** the distance, coordinate by coordinate *)
Definition point_within (d : Qc) (p q : vec3) : Prop :=
  Qcabs (vx q - vx p) <= d /\ Qcabs (vy q - vy p) <= d /\ Qcabs (vz q - vz p) <= d.

(** 2^k *)
Definition p2 (k : Z) : Qc := Q2Qc (Qpower 2 k).
(** the integer nearest to a rational number, the even one of two *)
Definition nearest (y : Qc) : Z :=
  let n := Qnum (this y) in let d := Zpos (Qden (this y)) in
  let q := (n / d)%Z in let r := (n mod d)%Z in
  if (2 * r <? d)%Z then q else if (2 * r =? d)%Z then (if Z.even q then q else q + 1)%Z else (q + 1)%Z.
(** the exponent e with 2^e <= |x| < 2^(e+1) *)
Definition exponent (x : Qc) : Z :=
  let e := (Z.log2 (Z.abs (Qnum (this x))) - Z.log2 (Zpos (Qden (this x))))%Z in
  if Qcltb (Qcabs x) (p2 e) then (e - 1)%Z else e.
(** IEEE 754 binary64, round to nearest, ties to even, on zero and on numbers in
    the normal range; None below the normal range and when the result overflows *)
Definition round_double (x : Qc) : option Qc :=
  if Qceqb x 0 then Some 0 else
  let e := exponent x in
  if (e <? -1022)%Z then None else
  let m := nearest (x * p2 (52 - e)) in
  let y := Q2Qc (inject_Z m) * p2 (e - 52) in
  if Qcltb (Qcabs y) (p2 1024) then Some y else None.

(** arithmetic in doubles; every product that is added at once may be fused, which
    leaves it unrounded *)
Definition in_doubles (fl : nat -> Qc -> option Qc) : Prop :=
  (forall x, fl 0%nat x = round_double x) /\
  forall k, (forall x, fl k x = round_double x) \/ (forall x, fl k x = Some x).
Definition never_fused (k : nat) : Qc -> option Qc := round_double.
Definition always_fused (k : nat) : Qc -> option Qc := match k with O => round_double | _ => Some end.

(** coordinates of control points: as they are for curves, of the homogeneous
    points (wx, wy, wz, w) for surfaces *)
Definition coords_up_to (B : Qc) (P : list vec4) : Prop :=
  forall q, In q P -> Qcabs (wx q) <= B /\ Qcabs (wy q) <= B /\ Qcabs (wz q) <= B.
Definition net_up_to (B : Qc) (P : list (list vec4)) : Prop :=
  forall row q, In row P -> In q row -> Qcabs (wx q) <= B * ww q /\ Qcabs (wy q) <= B * ww q /\ Qcabs (wz q) <= B * ww q.

(** a box grown by d on every side *)
Definition grown (b : aabb) (d : Qc) : aabb :=
  Box (V3 (vx (bmin b) - d) (vy (bmin b) - d) (vz (bmin b) - d)) (V3 (vx (bmax b) + d) (vy (bmax b) + d) (vz (bmax b) + d)).
