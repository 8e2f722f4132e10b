(** Model of the parts of cmmcore/vec.h used elsewhere: vec2, vec3, vec4 over
    exact rationals. The scalar code paths are modelled; the ARM NEON paths
    compute the same values in exact arithmetic. *)
From Coq Require Import List ZArith QArith Qcanon.
From Verif Require Import Base.
Open Scope Qc_scope.

(** vec.h:225-226 *)
Record vec3 := V3 { vx : Qc; vy : Qc; vz : Qc }.

(** Axis numbers 0, 1, 2. *)
Inductive axis := AX | AY | AZ.

(** vec3::operator[], vec.h:294-305 *)
Definition coord (p : vec3) (a : axis) : Qc :=
  match a with AX => vx p | AY => vy p | AZ => vz p end.

(** vec3::operator-(), vec.h:318-320 *)
Definition v3neg (a : vec3) : vec3 := V3 (- vx a) (- vy a) (- vz a).
(** vec3::operator-, vec.h:371-373 *)
Definition v3sub (a b : vec3) : vec3 := V3 (vx a - vx b) (vy a - vy b) (vz a - vz b).
(** vec3::operator+, vec.h:374-376 *)
Definition v3add (a b : vec3) : vec3 := V3 (vx a + vx b) (vy a + vy b) (vz a + vz b).
(** vec3::operator*(double), vec.h:377-379 *)
Definition v3scale (a : vec3) (k : Qc) : vec3 := V3 (vx a * k) (vy a * k) (vz a * k).
(** vec3::dot, vec.h:332-348 *)
Definition v3dot (a b : vec3) : Qc := vx a * vx b + vy a * vy b + vz a * vz b.
(** vec3::cross, vec.h:356-362 *)
Definition v3cross (a b : vec3) : vec3 :=
  V3 (vy a * vz b - vz a * vy b) (vz a * vx b - vx a * vz b) (vx a * vy b - vy a * vx b).
(** vec3::sqLength, vec.h:402-410 *)
Definition v3sq (a : vec3) : Qc := vx a * vx a + vy a * vy a + vz a * vz a.
(** vec3::distanceSq, vec.h:398-401 *)
Definition v3distSq (a b : vec3) : Qc := v3sq (v3sub a b).

(** struct vec2, vec.h:74- *)
Record vec2 := V2 { ux : Qc; uy : Qc }.
(** vec2::operator-, dot, sqLength (vec.h:162-171) *)
Definition v2sub (a b : vec2) : vec2 := V2 (ux a - ux b) (uy a - uy b).
Definition v2dot (a b : vec2) : Qc := ux a * ux b + uy a * uy b.

(** struct vec4, vec.h:681- *)
Record vec4 := V4 { wx : Qc; wy : Qc; wz : Qc; ww : Qc }.
