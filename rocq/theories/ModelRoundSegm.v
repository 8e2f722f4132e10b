(** closestPointOnSegm to the origin of cmmcore/closest_point.h once more, with every
    arithmetic operation followed by a rounding. *)
From Coq Require Import List ZArith QArith Qcanon Bool.
From Verif Require Import Base ModelVec ModelRoundKd.
Import ListNotations.
Open Scope Qc_scope.

(** a point, or a division of 0 by 0 whose result [std::clamp] hands on, or an infinity
    before the division, which is not followed further: what closest_point.h:72-77 can
    return *)
Inductive outcome := Point (p : vec3) | NotANumber | TooLarge.

Section Rounded.
Variable fl : nat -> Qc -> option Qc.

(** vec3::dot, vec.h:332-351, and with twice the same vector vec3::sqLength,
    vec.h:402-410; the three products may be fused *)
Definition fdot3 (k : nat) (a b : vec3) : option Qc :=
  fplus fl (fplus fl (fl k (vx a * vx b)) (fl (k + 1)%nat (vy a * vy b))) (fl (k + 2)%nat (vz a * vz b)).
(** std::clamp of a quotient to [0, 1], closest_point.h:74-75; None is NaN. Any other
    number divided by 0, and a quotient that is too large, is an infinity of the sign of
    the number. *)
Definition fratio01 (n d : Qc) : option Qc :=
  let at_infinity := Some (if 0 <? n then 1 else 0) in
  if Qceqb d 0 then (if Qceqb n 0 then None else at_infinity)
  else match fl 0 (n / d) with
       | None => at_infinity
       | Some t => Some (if t <? 0 then 0 else if 1 <? t then 1 else t)
       end.
(** one coordinate of [a + ab * t], closest_point.h:76; the product may be fused *)
Definition fstep (k : nat) (a d t : Qc) : option Qc :=
  match fl k (d * t) with Some m => fl 0 (a + m) | None => None end.

(** closestPointOnSegm, closest_point.h:72-77 *)
Definition fclosest_on_segm (a b : vec3) : outcome :=
  match fl 0 (vx b - vx a), fl 0 (vy b - vy a), fl 0 (vz b - vz a) with
  | Some x, Some y, Some z =>
      let ab := V3 x y z in
      match fdot3 21 a ab, fdot3 24 ab ab with
      | Some n, Some s =>
          match fratio01 (- n) s with
          | None => NotANumber
          | Some t =>
              match fstep 27 (vx a) x t, fstep 28 (vy a) y t, fstep 29 (vz a) z t with
              | Some p, Some q, Some r => Point (V3 p q r)
              | _, _, _ => TooLarge
              end
          end
      | _, _ => TooLarge
      end
  | _, _, _ => TooLarge
  end.
End Rounded.
