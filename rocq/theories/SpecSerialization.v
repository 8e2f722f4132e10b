(** Specification vocabulary for the curve file properties (C01-C06). *)
From Coq Require Import List ZArith.
From Verif Require Import Base ModelSerialization.
Import ListNotations.
Open Scope Z_scope.

(** A 64-bit pattern. *)
Definition is_dbl (d : dbl) : Prop := 0 <= d < 2 ^ 64.
Definition is_vec4 (v : vec4b) : Prop :=
  is_dbl (v4x v) /\ is_dbl (v4y v) /\ is_dbl (v4z v) /\ is_dbl (v4w v).

(** What a usable curve object satisfies: int degree not larger than the number
    of control points, at least one control point and one knot, sizes that fit
    an int. *)
Definition usable (c : curve) : Prop :=
  - 2 ^ 31 <= c_degree c <= Z.of_nat (length (c_cps c)) /\
  c_cps c <> [] /\ c_knots c <> [] /\
  Z.of_nat (length (c_cps c)) < 2 ^ 31 /\ Z.of_nat (length (c_knots c)) < 2 ^ 31 /\
  Forall is_vec4 (c_cps c) /\ Forall is_dbl (c_knots c).

Definition storable (cs : list curve) : Prop :=
  Forall usable cs /\ Z.of_nat (length cs) < 2 ^ 31.

(** Two curves with the same degree, control points and knots, bit for bit. *)
Definition same_geometry (a b : curve) : Prop :=
  c_degree a = c_degree b /\ c_cps a = c_cps b /\ c_knots a = c_knots b.

Definition proper_prefix {A} (p l : list A) : Prop := exists s, s <> [] /\ l = p ++ s.
