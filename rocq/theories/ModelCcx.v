(** Model of cmmcore/ccx.h: curve-curve intersection by recursive bisection. *)
From Coq Require Import List ZArith QArith Qcanon Bool.
From Verif Require Import Base ModelVec ModelAabb ModelNurbs.
Import ListNotations.
Open Scope Qc_scope.

Section Ccx.
(** vec3::length, vec.h:411-419: sqrtf of the sum of squares, so rounded to
    single precision; None is an infinite value. The theorems say what they need. *)
Variable len : vec3 -> option Qc.

(** (bb.max - bb.min).length() < tol, ccx.h:99 *)
Definition ccx_small (b : aabb) (tol : Qc) : bool :=
  match len (v3sub (bmax b) (bmin b)) with Some l => l <? tol | None => false end.

(** ccx.h:100-110: append the pair unless the last one is within tol of it *)
Definition ccx_push (tol : Qc) (result : list (Qc * Qc)) (first second : Qc) : list (Qc * Qc) :=
  match rev result with
  | (f, s) :: _ =>
      if (Qcabs (f - first) <=? tol) && (Qcabs (s - second) <=? tol) then result
      else result ++ [(first, second)]
  | [] => result ++ [(first, second)]
  end.

(** one of the four recursive calls, once the previous one has returned *)
Definition ccx_then {A} (r : option (res A)) (k : A -> option (res A)) : option (res A) :=
  match r with
  | None => None
  | Some (Ok a) => k a
  | Some e => Some e
  end.

(** ccx, ccx.h:92-120. [None]: the fuel does not suffice. The vector [result] is
    passed in and out; after an exception its contents are not modelled. *)
Fixpoint ccx (fuel : nat) (c1 c2 : ncurve) (tol : Qc) (result : list (Qc * Qc)) : option (res (list (Qc * Qc))) :=
  match fuel with
  | O => None
  | S f =>
      let '(l1, h1) := nc_interval c1 in
      let '(l2, h2) := nc_interval c2 in
      if aabb_intersects (nc_aabb c1) (nc_aabb c2) then
        if ccx_small (nc_aabb c1) tol && ccx_small (nc_aabb c2) tol then
          Some (Ok (ccx_push tol result (qc 1 2 * (l1 + h1)) (qc 1 2 * (l2 + h2))))
        else
          match nc_split c1 ((h1 - l1) * qc 1 2 + l1) false with
          | Ok (a1, b1) =>
              match nc_split c2 ((h2 - l2) * qc 1 2 + l2) false with
              | Ok (a2, b2) =>
                  ccx_then (ccx f a1 a2 tol result) (fun r =>
                  ccx_then (ccx f b1 b2 tol r) (fun r =>
                  ccx_then (ccx f a1 b2 tol r) (fun r =>
                  ccx f b1 a2 tol r)))
              | Throw e => Some (Throw e)
              | UB => Some UB
              end
          | Throw e => Some (Throw e)
          | UB => Some UB
          end
      else Some (Ok result)
  end.
End Ccx.
