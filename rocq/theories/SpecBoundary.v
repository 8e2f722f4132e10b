(** What it means to group boundary points and to remove duplicates. *)
From Coq Require Import List ZArith QArith Qcanon Permutation.
From Verif Require Import Base ModelVec ModelNurbs ModelSurface ModelBoundary.
Import ListNotations.
Open Scope Qc_scope.

(** Coordinates whose fifteen-fold fits an int. *)
Definition hashable (v : vec3) : Prop :=
  Qcabs (vx v) < qc 143165576 1 /\ Qcabs (vy v) < qc 143165576 1 /\ Qcabs (vz v) < qc 143165576 1.

(** The groups [gs], lists of positions, partition the positions 0 .. n-1 and have one or two members. *)
Definition grouping (n : nat) (gs : list (list nat)) : Prop :=
  Permutation (concat gs) (seq 0 n) /\ Forall (fun g => exists i, g = [i] \/ exists j, g = [i; j]) gs.

(** The groups made of points. *)
Definition groups_of (points : list ipoint) (gs : list (list nat)) (res : list (list ipoint)) : Prop :=
  Forall2 (Forall2 (fun i p => nth_error points i = Some p)) gs res.

(** All groups but the last are pairs. *)
Definition only_last_single (gs : list (list nat)) : Prop :=
  forall l1 g l2, gs = l1 ++ g :: l2 -> l2 <> [] -> length g = 2%nat.

(** The distance of two points, as the program sees it. *)
Definition gap (len : vec3 -> option Qc) (points : list ipoint) (i j : nat) : option Qc :=
  match nth_error points i, nth_error points j with
  | Some p, Some q => len (v3sub (ip_point p) (ip_point q))
  | _, _ => None
  end.

(** In every pair the second is nearest to the first among all points of the pair and of later groups. *)
Definition pairs_nearest (len : vec3 -> option Qc) (points : list ipoint) (gs : list (list nat)) : Prop :=
  forall l1 i j l2 k, gs = l1 ++ [i; j] :: l2 -> In k (concat l2) ->
    exists d, gap len points i j = Some d /\ forall e, gap len points i k = Some e -> d <= e.

(** A hit of boundary curve number [i] of a surface, recorded as a point. *)
Definition recorded (csx : ncurve -> nsurf -> Qc -> res (list (vec3 * (Qc * Qc * Qc)))) (tol : Qc)
  (own other : nsurf) (first : bool) (p : ipoint) : Prop :=
  exists curves i c hits t u v, free_boundaries own = Ok curves /\ nth_error curves i = Some c /\
    csx c other tol = Ok hits /\ In (ip_point p, (t, u, v)) hits /\
    ip_t p = t /\ ip_params p = (u, v) /\ ip_boundary p = Z.of_nat i /\ ip_first p = first /\
    ip_interval p = (ns_iu own, ns_iv own).

(** No two points of the list count as equal. *)
Definition distinct_points (l : list ipoint) : Prop :=
  ForallOrdPairs (fun p q => vec3_equal (ip_point q) (ip_point p) = Ok false) l.

(** Every distance is a number below infinity. *)
Definition finite_gaps (len : vec3 -> option Qc) (points : list ipoint) : Prop :=
  forall i j, (i < length points)%nat -> (j < length points)%nat -> gap len points i j <> None.
