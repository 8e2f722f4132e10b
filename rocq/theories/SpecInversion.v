(** Vocabulary for statements about point inversion. *)
From Coq Require Import List ZArith QArith Qcanon.
From Verif Require Import Base ModelVec ModelNurbs ModelSurface.
Import ListNotations.
Open Scope Qc_scope.

(** o + u a + v b *)
Definition combine3 (o a b : vec3) (u v : Qc) : vec3 :=
  V3 (vx o + u * vx a + v * vx b) (vy o + u * vy a + v * vy b) (vz o + u * vz a + v * vz b).

Definition v3_of (p : vec3) : vec4 := V4 (vx p) (vy p) (vz p) 1.

(** the surface made from the corners of the parallelogram o, o + b, o + a, o + a + b
    over the unit square *)
Definition parallelogram (o a b : vec3) : res nsurf :=
  ns_make [[v3_of o; v3_of (combine3 o a b 0 1)]; [v3_of (combine3 o a b 1 0); v3_of (combine3 o a b 1 1)]]
    1 1 [0; 0; 1; 1] [0; 0; 1; 1].

(** the area squared of the parallelogram with sides a and b *)
Definition gram (a b : vec3) : Qc := v3dot a a * v3dot b b - v3dot a b * v3dot b a.
