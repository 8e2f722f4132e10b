(** nearestNeighbor of cmmcore/kdtree.h once more, with every arithmetic
    operation followed by a rounding. None is infinity: coordinates are finite, so
    the difference of two is a number or an infinity of either sign, its square a
    number or infinity, and no NaN comes up. [fl k] may be [Some] for the three
    products that are added at once (11, 12, 13: fused multiply-add). *)
From Coq Require Import List ZArith QArith Qcanon Bool.
From Verif Require Import Base ModelVec ModelKd.
Import ListNotations.
Open Scope Qc_scope.

Section Rounded.
Variable fl : nat -> Qc -> option Qc.

(** the square of a difference, and the sum of two squares, in
    vec3::sqLength, vec.h:402-410 *)
Definition fsq (k : nat) (d : option Qc) : option Qc := match d with Some x => fl k (x * x) | None => None end.
Definition fplus (a b : option Qc) : option Qc := match a, b with Some x, Some y => fl 0 (x + y) | _, _ => None end.
(** vec3::distanceSq, vec.h:398-401, and operator-, vec.h:369-371 *)
Definition fdist_sq3 (a b : vec3) : option Qc :=
  fplus (fplus (fsq 11 (fl 0 (vx a - vx b))) (fsq 12 (fl 0 (vy a - vy b)))) (fsq 13 (fl 0 (vz a - vz b))).
(** < of numbers that may be infinite *)
Definition flt (a b : option Qc) : bool :=
  match a, b with Some x, Some y => x <? y | Some _, None => true | None, _ => false end.

(** nearestNeighborRec, kdtree.h:115-151 *)
Fixpoint fnearestRec (t : kdtree) (target : vec3) (s : vec3 * option Qc) : vec3 * option Qc :=
  match t with
  | KNull => s
  | KNode p ax l r =>
      let d := fdist_sq3 target p in
      let s1 := if flt d (snd s) then (p, d) else s in
      let diff := fl 0 (coord target ax - coord p ax) in
      if coord target ax <? coord p ax then
        let s2 := fnearestRec l target s1 in
        if flt (fsq 0 diff) (snd s2) then fnearestRec r target s2 else s2
      else
        let s2 := fnearestRec r target s1 in
        if flt (fsq 0 diff) (snd s2) then fnearestRec l target s2 else s2
  end.

(** KDTree::nearestNeighbor, kdtree.h:191-199 *)
Definition fkd_nearest (s : kdstate) (target : vec3) : res vec3 :=
  match kroot s with
  | KNull => Throw ERuntime
  | KNode p _ _ _ => Ok (fst (fnearestRec (kroot s) target (p, fdist_sq3 target p)))
  end.
End Rounded.
