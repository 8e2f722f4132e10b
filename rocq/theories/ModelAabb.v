(** Model of struct AABB, cmmcore/aabb.h:15-299. The scalar fallbacks are
    modelled; the SSE2 / NEON paths perform the same comparisons, minima and
    maxima on the same members. *)
From Coq Require Import List ZArith QArith Qcanon Bool.
From Verif Require Import Base ModelVec.
Import ListNotations.
Open Scope Qc_scope.

(** aabb.h:16 *)
Record aabb := Box { bmin : vec3; bmax : vec3 }.

(** std::numeric_limits<double>::max(), lowest() and min() *)
Definition DBL_MAX : Qc := Q2Qc (inject_Z ((2 ^ 53 - 1) * 2 ^ 971)).
Definition DBL_LOWEST : Qc := - DBL_MAX.
Definition DBL_MIN : Qc := Q2Qc (1 # (2 ^ 1022)).

(** vec3(double value), vec.h:240 *)
Definition v3all (q : Qc) : vec3 := V3 q q q.

(** AABB::AABB(), aabb.h:18-21 *)
Definition aabb_default : aabb := Box (v3all DBL_MAX) (v3all DBL_LOWEST).

(** AABB::expand, aabb.h:291-298 *)
Definition aabb_expand (b : aabb) (p : vec3) : aabb :=
  Box (V3 (Qcmin (vx (bmin b)) (vx p)) (Qcmin (vy (bmin b)) (vy p)) (Qcmin (vz (bmin b)) (vz p)))
      (V3 (Qcmax (vx (bmax b)) (vx p)) (Qcmax (vy (bmax b)) (vy p)) (Qcmax (vz (bmax b)) (vz p))).

(** AABB::AABB(const std::vector<vec3>&), aabb.h:26-32: pts[0] of an empty
    vector is UB. *)
Definition aabb_of_points (pts : list vec3) : res aabb :=
  match pts with
  | [] => UB
  | p :: t => Ok (fold_left aabb_expand t (Box p p))
  end.

(** C++ conversion bool -> double. *)
Definition b2q (b : bool) : Qc := if b then 1 else 0.

(** AABB::infinity, aabb.h:33-36; == associates to the left and each comparison
    result is converted back to a number. *)
Definition aabb_infinity (b : aabb) : bool :=
  (b2q (b2q (vx (bmax b) =? vy (bmax b)) =? vz (bmax b)) =? DBL_MIN) &&
  (b2q (b2q (vx (bmin b) =? vy (bmin b)) =? vz (bmin b)) =? DBL_MAX).

(** AABB::intersects, aabb.h:44-98 (scalar expression 94-96) *)
Definition aabb_intersects (a b : aabb) : bool :=
  (vx (bmin a) <=? vx (bmax b)) && (vx (bmin b) <=? vx (bmax a)) &&
  (vy (bmin a) <=? vy (bmax b)) && (vy (bmin b) <=? vy (bmax a)) &&
  (vz (bmin a) <=? vz (bmax b)) && (vz (bmin b) <=? vz (bmax a)).

(** AABB::intersection, aabb.h:100-188 (scalar 175-186): Some = returns true
    and writes the result. *)
Definition aabb_intersection (a b : aabb) : option aabb :=
  if aabb_intersects a b then
    Some (Box (V3 (Qcmax (vx (bmin a)) (vx (bmin b))) (Qcmax (vy (bmin a)) (vy (bmin b))) (Qcmax (vz (bmin a)) (vz (bmin b))))
              (V3 (Qcmin (vx (bmax a)) (vx (bmax b))) (Qcmin (vy (bmax a)) (vy (bmax b))) (Qcmin (vz (bmax a)) (vz (bmax b)))))
  else None.

(** AABB::merge, aabb.h:196-245 (scalar 240-243) *)
Definition aabb_merge (a b : aabb) : aabb :=
  Box (V3 (Qcmin (vx (bmin a)) (vx (bmin b))) (Qcmin (vy (bmin a)) (vy (bmin b))) (Qcmin (vz (bmin a)) (vz (bmin b))))
      (V3 (Qcmax (vx (bmax a)) (vx (bmax b))) (Qcmax (vy (bmax a)) (vy (bmax b))) (Qcmax (vz (bmax a)) (vz (bmax b)))).

(** AABB::volume, aabb.h:252-289 *)
Definition aabb_volume (b : aabb) : Qc :=
  (vx (bmax b) - vx (bmin b)) * (vy (bmax b) - vy (bmin b)) * (vz (bmax b) - vz (bmin b)).
