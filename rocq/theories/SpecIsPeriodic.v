(** When two doubles are the same number, and when a curve repeats its first control points. *)
From Coq Require Import List ZArith.
From Verif Require Import Base ModelSerialization SpecSerialization.
Import ListNotations.
Open Scope Z_scope.

(** the fields of a 64-bit pattern *)
Definition fraction (d : dbl) : Z := d mod 2 ^ 52.
Definition exponent (d : dbl) : Z := (d / 2 ^ 52) mod 2 ^ 11.
Definition not_a_number (d : dbl) : Prop := exponent d = 2047 /\ fraction d <> 0.
Definition is_zero (d : dbl) : Prop := exponent d = 0 /\ fraction d = 0.
Definition same_number (a b : dbl) : Prop := ~ not_a_number a /\ ~ not_a_number b /\ (a = b \/ (is_zero a /\ is_zero b)).
Definition same_point (p q : vec4b) : Prop :=
  same_number (v4x p) (v4x q) /\ same_number (v4y p) (v4y q) /\ same_number (v4z p) (v4z q) /\ same_number (v4w p) (v4w q).
(** the last [degree] control points are the first ones *)
Definition repeats_start (c : curve) : Prop :=
  forall j, (Z.of_nat j < c_degree c)%Z -> exists p q,
    nth_error (c_cps c) j = Some p /\ nth_error (c_cps c) (length (c_cps c) - Z.to_nat (c_degree c) + j) = Some q /\ same_point p q.
