(** Geometry of space used to state the properties of the closest-point
    functions and of the GJK test. *)
From Coq Require Import List ZArith QArith Qcanon.
From Verif Require Import Base ModelVec SpecNurbs.
Import ListNotations.
Open Scope Qc_scope.

Definition origin : vec3 := V3 0 0 0.

(** the whole line, the half line, the segment, the triangle *)
Definition on_line (a b p : vec3) : Prop := exists t, p = v3add a (v3scale (v3sub b a) t).
Definition on_ray (s d p : vec3) : Prop := exists t, 0 <= t /\ p = v3add s (v3scale d t).
Definition on_segment (a b p : vec3) : Prop :=
  exists t, 0 <= t /\ t <= 1 /\ p = v3add (v3scale a (1 - t)) (v3scale b t).
Definition in_triangle (a b c p : vec3) : Prop :=
  exists u v w, 0 <= u /\ 0 <= v /\ 0 <= w /\ u + v + w = 1 /\
    p = v3add (v3add (v3scale a u) (v3scale b v)) (v3scale c w).

(** p is a point of the set that no other point of the set beats *)
Definition nearest (set : vec3 -> Prop) (q p : vec3) : Prop :=
  set p /\ forall x, set x -> v3distSq p q <= v3distSq x q.

(** convex combinations of the points *)
Definition pt3 (P : list vec3) (i : nat) : vec3 := nth i P (V3 0 0 0).
Definition in_hull3 (P : list vec3) (p : vec3) : Prop :=
  exists w : nat -> Qc, (forall i, 0 <= w i) /\ qsum w (length P) = 1 /\
    vx p = qsum (fun i => w i * vx (pt3 P i)) (length P) /\
    vy p = qsum (fun i => w i * vy (pt3 P i)) (length P) /\
    vz p = qsum (fun i => w i * vz (pt3 P i)) (length P).
Definition hulls_meet3 (A B : list vec3) : Prop := exists p, in_hull3 A p /\ in_hull3 B p.

(** p = a - b for vertices a and b *)
Definition vertex_difference (A B : list vec3) (p : vec3) : Prop := exists a b, In a A /\ In b B /\ p = v3sub a b.
(** six times the volume of the tetrahedron *)
Definition volume6 (a b c d : vec3) : Qc := v3dot (v3cross (v3sub b a) (v3sub c a)) (v3sub d a).
(** coordinates small enough for all products of support to be finite doubles *)
Definition moderate3 (B : Qc) (P : list vec3) : Prop :=
  forall p, In p P -> - B <= vx p /\ vx p <= B /\ - B <= vy p /\ vy p <= B /\ - B <= vz p /\ vz p <= B.
