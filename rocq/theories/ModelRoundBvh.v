(** intersect_bvh of cmmcore/bvh.hpp once more, with every arithmetic operation of
    AABB::volume followed by a rounding. The sides of a box are not negative where
    volume is called, so there is one infinity; 0 times infinity is NaN. No two
    products are added, so nothing is fused: only [fl 0] occurs. *)
From Coq Require Import List ZArith QArith Qcanon Bool.
From Verif Require Import Base ModelVec ModelAabb ModelBvh.
Import ListNotations.
Open Scope Qc_scope.

(** what a double can hold that is not a negative infinity *)
Inductive dnum := Num (x : Qc) | Infinite | NaN.

Section Rounded.
Variable fl : nat -> Qc -> option Qc.

(** a rounded result *)
Definition dof (x : option Qc) : dnum := match x with Some x => Num x | None => Infinite end.
(** the product of two numbers that are not negative, aabb.h:262 and 267 *)
Definition dmul (a b : dnum) : dnum :=
  match a, b with
  | NaN, _ => NaN
  | _, NaN => NaN
  | Num x, Num y => dof (fl 0 (x * y))
  | Infinite, Num y => if Qceqb y 0 then NaN else Infinite
  | Num x, Infinite => if Qceqb x 0 then NaN else Infinite
  | Infinite, Infinite => Infinite
  end.
(** AABB::volume, aabb.h:252-289 *)
Definition fvolume (b : aabb) : dnum :=
  let dx := dof (fl 0 (vx (bmax b) - vx (bmin b))) in
  let dy := dof (fl 0 (vy (bmax b) - vy (bmin b))) in
  let dz := dof (fl 0 (vz (bmax b) - vz (bmin b))) in
  dmul (dmul dx dy) dz.
(** < of C++: false when an operand is NaN *)
Definition dlt (a : dnum) (x : Qc) : bool := match a with Num y => y <? x | _ => false end.

(** intersect_bvh, bvh.hpp:443-474 *)
Fixpoint fintersect_bvh (t1 : bvh) : bvh -> list (bvh * bvh) :=
  fix inner (t2 : bvh) : list (bvh * bvh) :=
  match t1 with
  | BNull => []
  | BNode bb1 o1 l1 r1 =>
      match t2 with
      | BNull => []
      | BNode bb2 o2 l2 r2 =>
          match aabb_intersection bb1 bb2 with
          | None => []
          | Some c =>
              if dlt (fvolume c) lit_1em6 then []
              else if has_obj o1 && has_obj o2 then [(t1, t2)]
              else if is_null l1 && is_null r1 then inner l2 ++ inner r2
              else if is_null l2 && is_null r2 then fintersect_bvh l1 t2 ++ fintersect_bvh r1 t2
              else fintersect_bvh l1 l2 ++ fintersect_bvh l1 r2 ++ fintersect_bvh r1 l2 ++ fintersect_bvh r1 r2
          end
      end
  end.
End Rounded.
