(** Specification vocabulary for finite differences (C157, C168). *)
From Coq Require Import List ZArith QArith Qcanon.
From Verif Require Import Base ModelVec.
Import ListNotations.
Open Scope Qc_scope.

(** c_0 + c_1 t + c_2 t^2 + ... *)
Fixpoint poly (c : list Qc) (t : Qc) : Qc :=
  match c with
  | [] => 0
  | a :: r => a + t * poly r t
  end.

(** c_1 + c_3 h^2 + c_5 h^4 + ...: every second coefficient *)
Fixpoint every_second (c : list Qc) (h : Qc) : Qc :=
  match c with
  | _ :: a :: r => a + h * h * every_second r h
  | _ => 0
  end.

(** In [lo, hi] the function f is the polynomial in (u - t) with the given
    coefficients, one list for each coordinate. *)
Definition expands (f : Qc -> res vec3) (lo hi t : Qc) (cx cy cz : list Qc) : Prop :=
  forall u, lo <= u -> u <= hi -> f u = Ok (V3 (poly cx (u - t)) (poly cy (u - t)) (poly cz (u - t))).

(** The k-th coefficients. *)
Definition nth3 (k : nat) (cx cy cz : list Qc) : vec3 := V3 (nth k cx 0) (nth k cy 0) (nth k cz 0).
