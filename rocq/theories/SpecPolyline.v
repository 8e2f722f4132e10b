(** What it means for polylines to be assembled from segments. *)
From Coq Require Import List ZArith QArith Qcanon Permutation.
From Verif Require Import Base ModelVec ModelPolyline.
Import ListNotations.
Open Scope Qc_scope.

(** Start and end of a segment walked forwards or backwards. *)
Definition walk_start (s : segment) (fwd : bool) : vec3 := if fwd then sp1 s else sp2 s.
Definition walk_end (s : segment) (fwd : bool) : vec3 := if fwd then sp2 s else sp1 s.

(** A polyline [pts] walks the segments [uses] (position in the input and
    direction) one after the other: leg [k] of the polyline is segment [k], up to
    points that are [near] each other. *)
Definition walks (near : vec3 -> vec3 -> bool) (segs : list segment) (pts : list vec3) (uses : list (nat * bool)) : Prop :=
  length pts = S (length uses) /\
  forall k i fwd, nth_error uses k = Some (i, fwd) ->
    exists s p q, nth_error segs i = Some s /\ nth_error pts k = Some p /\ nth_error pts (S k) = Some q /\
      (p = walk_start s fwd \/ near (walk_start s fwd) p = true) /\
      (q = walk_end s fwd \/ near (walk_end s fwd) q = true).

(** The polyline handed out for the walk [pts]: the last point is dropped when the walk comes back to its start. *)
Definition handed_out (near : vec3 -> vec3 -> bool) (pts out : list vec3) : Prop :=
  exists a z m, pts = a :: m ++ [z] /\ ((near a z = true /\ out = a :: m) \/ (near a z = false /\ out = pts)).

(** A coordinate the quantisation can represent. *)
Definition small (c : Qc) : Prop := Qcabs c <= qc 2147483646 4503599627370496.
Definition small3 (p : vec3) : Prop := small (vx p) /\ small (vy p) /\ small (vz p).
Definition small_segment (s : segment) : Prop := small3 (sp1 s) /\ small3 (sp2 s).

(** [near] only relates points whose coordinates differ by less than eps = 2^-52. *)
Definition close_points (p q : vec3) : Prop :=
  Qcabs (vx p - vx q) < qc 1 4503599627370496 /\ Qcabs (vy p - vy q) < qc 1 4503599627370496 /\ Qcabs (vz p - vz q) < qc 1 4503599627370496.
Definition near_sound (near : vec3 -> vec3 -> bool) : Prop := forall p q, near p q = true -> close_points p q.

(** The test in exact arithmetic. *)
Definition near_exact (p q : vec3) : bool := v3distSq p q <? qc 1 4503599627370496 * qc 1 4503599627370496.

(** The outputs are walks that together use every segment exactly once. *)
Definition assembled (near : vec3 -> vec3 -> bool) (segs : list segment) (outs : list (list vec3))
  (pts : list (list vec3)) (uses : list (list (nat * bool))) : Prop :=
  Permutation (map fst (concat uses)) (seq 0 (length segs)) /\
  Forall2 (handed_out near) pts outs /\ Forall2 (walks near segs) pts uses /\ Forall (fun u => u <> []) uses.

(** Neither end of a walk is near an end of a segment used by a later walk. *)
Definition cannot_be_joined (near : vec3 -> vec3 -> bool) (segs : list segment)
  (pts : list (list vec3)) (uses : list (list (nat * bool))) : Prop :=
  forall i j p u s n seg q, (i < j)%nat -> nth_error pts i = Some p -> nth_error uses j = Some u ->
    In (n, s) u -> nth_error segs n = Some seg -> q = sp1 seg \/ q = sp2 seg ->
    forall d, near q (hd d p) = false /\ near q (last p d) = false.

(** A point with a coordinate of a millionth or more. *)
Definition big3 (p : vec3) : Prop := qc 1 1000000 <= Qcabs (vx p) \/ qc 1 1000000 <= Qcabs (vy p) \/ qc 1 1000000 <= Qcabs (vz p).
