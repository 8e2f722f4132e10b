(** Points near a segment, for C250. *)
From Coq Require Import List ZArith QArith Qcanon.
From Verif Require Import Base ModelVec SpecRound SpecRoundKd.
Open Scope Qc_scope.

Definition coords_within (B : Qc) (p : vec3) : Prop := Qcabs (vx p) <= B /\ Qcabs (vy p) <= B /\ Qcabs (vz p) <= B.
(** [p] differs from the point of the segment at [t] by 2^-50 of the larger coordinate
    and 2^-1073 *)
Definition near_at (t a b p : Qc) : Prop :=
  forall M, Qcabs a <= M -> Qcabs b <= M -> Qcabs (p - (a + t * (b - a))) <= p2 (-50) * M + p2 (-1073).
Definition near_segment (a b p : vec3) : Prop :=
  exists t, 0 <= t /\ t <= 1 /\ near_at t (vx a) (vx b) (vx p) /\ near_at t (vy a) (vy b) (vy p) /\ near_at t (vz a) (vz b) (vz p).
(** some coordinate differs by 2^-500 or more *)
Definition distinct_enough (a b : vec3) : Prop :=
  p2 (-500) <= Qcabs (vx b - vx a) \/ p2 (-500) <= Qcabs (vy b - vy a) \/ p2 (-500) <= Qcabs (vz b - vz a).

(** [p] differs from [c], a point of the segment, by 2^-49 of the larger coordinate of
    the ends and 2^-1073 *)
Definition near_coord (a b c p : Qc) : Prop :=
  forall M, Qcabs a <= M -> Qcabs b <= M -> Qcabs (p - c) <= p2 (-49) * M + p2 (-1073).
Definition near_point (a b c p : vec3) : Prop :=
  near_coord (vx a) (vx b) (vx c) (vx p) /\ near_coord (vy a) (vy b) (vy c) (vy p) /\ near_coord (vz a) (vz b) (vz c) (vz p).

(** in no coordinate does the way from [a] to [b] begin towards 0 *)
Definition behind_start (a b : vec3) : Prop :=
  0 <= vx a * (vx b - vx a) /\ 0 <= vy a * (vy b - vy a) /\ 0 <= vz a * (vz b - vz a).
