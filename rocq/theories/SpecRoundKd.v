(** All of double arithmetic, small numbers and infinity included, for C244. *)
From Coq Require Import List ZArith QArith Qcanon.
From Verif Require Import Base ModelVec SpecRound.
Open Scope Qc_scope.

(** IEEE 754 binary64, round to nearest, ties to even: below 2^-1022 the steps
    stay 2^-1074; None is an infinity *)
Definition unbounded (x : Qc) : Qc :=
  let e := Z.max (exponent x) (-1022) in
  Q2Qc (inject_Z (nearest (x * p2 (52 - e)))) * p2 (e - 52).
Definition round_full (x : Qc) : option Qc :=
  if Qcltb (Qcabs (unbounded x)) (p2 1024) then Some (unbounded x) else None.

(** every product that is added at once may be left unrounded *)
Definition in_all_doubles (fl : nat -> Qc -> option Qc) : Prop :=
  (forall x, fl 0%nat x = round_full x) /\
  forall k, (forall x, fl k x = round_full x) \/ (forall x, fl k x = Some x).
Definition full_never (k : nat) : Qc -> option Qc := round_full.
Definition full_always (k : nat) : Qc -> option Qc := match k with O => round_full | _ => Some end.

(** the order of numbers and infinity *)
Definition ext_le (a b : option Qc) : Prop :=
  match a, b with _, None => True | Some x, Some y => x <= y | None, Some _ => False end.

(** all coordinates are multiples of 2^e, fewer than 2^b steps from 0 *)
Definition on_grid3 (e b : Z) (p : vec3) : Prop :=
  exists i j k, (Z.abs i < 2 ^ b)%Z /\ (Z.abs j < 2 ^ b)%Z /\ (Z.abs k < 2 ^ b)%Z /\
    vx p = Qc_of_Z i * p2 e /\ vy p = Qc_of_Z j * p2 e /\ vz p = Qc_of_Z k * p2 e.

(** a number that is 0 or neither very small nor very large *)
Definition moderate (d : Qc) : Prop := d = 0 \/ (p2 (-500) <= Qcabs d /\ Qcabs d <= p2 500).
Definition moderately_apart (p q : vec3) : Prop :=
  moderate (vx p - vx q) /\ moderate (vy p - vy q) /\ moderate (vz p - vz q).
