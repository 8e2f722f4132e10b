(** Closest points and the GJK test: cmmcore/closest_point.h, cmmcore/gjk.h and
    vectorProjection of cmmcore/vec.h, over exact numbers. A quotient with
    divisor zero is a NaN or an infinity in the code; here it is UB. *)
From Coq Require Import List ZArith QArith Qcanon Bool.
From Verif Require Import Base ModelVec ModelAabb ModelNurbs.
Import ListNotations.
Open Scope Qc_scope.

(** vectorProjection, vec.h:448-463 *)
Definition vector_projection (a b : vec3) : res vec3 :=
  let x0 := vx b * vx b in
  let x1 := vy b * vy b in
  let x2 := vz b * vz b in
  x3 <- qdiv 1 (x0 + x1 + x2) ;;
  let x4 := vy a * x3 in
  let x5 := vx b * vy b in
  let x6 := vz a * x3 in
  let x7 := vz b * x6 in
  let x8 := vx a * x3 in
  Ok (V3 (vx b * x7 + x0 * x8 + x4 * x5) (vy b * x7 + x1 * x4 + x5 * x8)
         (vx b * vz b * x8 + vy b * vz b * x4 + x2 * x6)).

(** closestPointOnRay, closest_point.h:19-30 *)
Definition closest_on_ray (a start dir : vec3) : res vec3 :=
  r <- vector_projection (v3sub a start) dir ;; Ok (v3add r start).
(** closestPointOnLine, closest_point.h:31-44 *)
Definition closest_on_line (a start stop : vec3) : res vec3 :=
  r <- vector_projection (v3sub a start) (v3sub stop start) ;; Ok (v3add r start).
(** closestPointOnSegm with a point, closest_point.h:45-70 *)
Definition closest_on_segm_from (a start stop : vec3) : res vec3 :=
  let d := v3sub stop start in
  let o := v3sub a start in
  let t := v3dot d o in
  if t <? 0 then Ok start
  else if 1 <? t then Ok stop
  else r <- vector_projection o d ;; Ok (v3add r start).

(** std::clamp *)
Definition qclamp (x lo hi : Qc) : Qc := if x <? lo then lo else if hi <? x then hi else x.
(** closestPointOnSegm to the origin, closest_point.h:72-77 *)
Definition closest_on_segm (a b : vec3) : res vec3 :=
  let ab := v3sub b a in
  t <- qdiv (- v3dot a ab) (v3sq ab) ;;
  Ok (v3add a (v3scale ab (qclamp t 0 1))).

(** closestPointOnTriangle to the origin, closest_point.h:80-123 *)
Definition closest_on_triangle (a b c : vec3) : res vec3 :=
  let ab := v3sub b a in
  let ac := v3sub c a in
  let ao := v3neg a in
  let d1 := v3dot ab ao in
  let d2 := v3dot ac ao in
  if (d1 <=? 0) && (d2 <=? 0) then Ok a else
  let bo := v3neg b in
  let d3 := v3dot ab bo in
  let d4 := v3dot ac bo in
  if (0 <=? d3) && (d4 <=? d3) then Ok b else
  let vc := d1 * d4 - d3 * d2 in
  if (vc <=? 0) && (0 <=? d1) && (d3 <=? 0) then
    v <- qdiv d1 (d1 - d3) ;; Ok (v3add a (v3scale ab v)) else
  let co := v3neg c in
  let d5 := v3dot ab co in
  let d6 := v3dot ac co in
  if (0 <=? d6) && (d5 <=? d6) then Ok c else
  let vb := d5 * d2 - d1 * d6 in
  if (vb <=? 0) && (0 <=? d2) && (d6 <=? 0) then
    w <- qdiv d2 (d2 - d6) ;; Ok (v3add a (v3scale ac w)) else
  let va := d3 * d6 - d5 * d4 in
  if (va <=? 0) && (0 <=? d4 - d3) && (0 <=? d5 - d6) then
    w <- qdiv (d4 - d3) ((d4 - d3) + (d5 - d6)) ;; Ok (v3add b (v3scale (v3sub c b) w)) else
  denom <- qdiv 1 (va + vb + vc) ;;
  Ok (v3add (v3add a (v3scale ab (vb * denom))) (v3scale ac (vc * denom))).
(** closestPointOnTriangle with a point, closest_point.h:124-134 *)
Definition closest_on_triangle_from (pt a b c : vec3) : res vec3 :=
  closest_on_triangle (v3sub a pt) (v3sub b pt) (v3sub c pt).

(** handleSimplex, gjk.h:48-138: the returned flag, the new simplex and the new
    direction. The direction handed in is the one returned when it is not
    assigned. *)
Definition handle_simplex (simplex : list vec3) (direction : vec3) (tol : Qc) : res (bool * list vec3 * vec3) :=
  match simplex with
  | [b; a] =>
      let ab := v3sub b a in
      let ao := v3neg a in
      if tol <? v3dot ab ao then Ok (false, simplex, v3cross (v3cross ab ao) ab)
      else Ok (false, [a], ao)
  | [c; b; a] =>
      let ab := v3sub b a in
      let ac := v3sub c a in
      let ao := v3neg a in
      let abc := v3cross ab ac in
      let abPerp := v3cross abc ac in
      let acPerp := v3cross ab abc in
      if tol <? v3dot abPerp ao then Ok (false, [b; a], abPerp)
      else if tol <? v3dot acPerp ao then Ok (false, [c; a], acPerp)
      else if tol <? v3dot abc ao then Ok (false, simplex, abc)
      else Ok (false, [b; c; a], v3neg abc)
  | [d; c; b; a] =>
      let ab := v3sub b a in
      let ac := v3sub c a in
      let ad := v3sub d a in
      let ao := v3neg a in
      let abc := v3cross ab ac in
      let acd := v3cross ac ad in
      let adb := v3cross ad ab in
      if 0 <? v3dot abc ao then Ok (false, [c; b; a], abc)
      else if 0 <? v3dot acd ao then Ok (false, [d; c; a], acd)
      else if 0 <? v3dot adb ao then Ok (false, [d; b; a], adb)
      else Ok (true, simplex, direction)
  | _ => Throw EInvalidArgument
  end.

(** operator< on vec3, gjk.h:141-146 *)
Definition v3lt (l r : vec3) : bool :=
  if vx l <? vx r then true
  else if (vx l =? vx r) && (vy l <? vy r) then true
  else if (vx l =? vx r) && (vy l =? vy r) && (vz l <? vz r) then true
  else false.

(** CMMCORE_SIMPLEX_FACES, gjk.h:46 *)
Definition simplex_faces : list (nat * nat * nat) := [(1, 2, 3); (0, 3, 2); (0, 1, 3); (0, 2, 1)]%nat.
(** closestPointOnSimplex, gjk.h:151-180; mindist keeps its first value *)
Definition closest_on_simplex (s : list vec3) : res vec3 :=
  match s with
  | [p] => Ok p
  | [p0; p1] => closest_on_segm p1 p0
  | [p0; p1; p2] => closest_on_triangle p2 p1 p0
  | _ =>
      let mindist := DBL_MAX in
      for_up (length s) 0 (fun i cpt =>
        '(f, k) <- get simplex_faces i ;; let '(f0, f1) := f in
        p0 <- get s f0 ;; p1 <- get s f1 ;; p2 <- get s k ;;
        pt <- closest_on_triangle p0 p1 p2 ;;
        let dst := v3sq pt in
        if dst <? mindist then Ok pt else Ok cpt) (V3 0 0 0)
  end.

(** supportVector, gjk.h:186-199; None for the index -1. The index is an int in
    the code, so fewer than 2^31 vertices are assumed. *)
Definition support_vector (vertices : list vec3) (d : vec3) : option nat :=
  snd (fold_left (fun (st : nat * Qc * option nat) v =>
         let '(i, highest, index) := st in
         let dotValue := v3dot v d in
         if highest <? dotValue then (S i, dotValue, Some i) else (S i, highest, index))
       vertices (0%nat, DBL_LOWEST, None)).
(** support, gjk.h:201-205; reading at index -1 is undefined *)
Definition support (A B : list vec3) (d : vec3) : res vec3 :=
  match support_vector A d, support_vector B (v3neg d) with
  | Some i, Some j => a <- get A i ;; b <- get B j ;; Ok (v3sub a b)
  | _, _ => UB
  end.

(** The outcome of GJK: the returned flag, the simplex and the value written to
    closestPointToOrigin, itself UB when it is not a number. *)
Record gjk_result := Gjk { collides : bool; final_simplex : list vec3; closest : res vec3 }.

(** the loop of GJK, gjk.h:235-270; cp0 is the value of closestPointToOrigin
    before the call, and n the iterations left *)
Fixpoint gjk_loop (A B : list vec3) (cp0 : vec3) (tol : Qc) (n : nat) (simplex : list vec3) (direction : vec3) : res gjk_result :=
  match n with
  | O => Ok (Gjk true simplex (Ok (V3 0 0 0)))
  | S n' =>
      point <- support A B direction ;;
      if v3dot point direction <? 0 then Ok (Gjk false simplex (closest_on_simplex simplex))
      else
        '(hs, direction') <- handle_simplex (simplex ++ [point]) direction tol ;;
        let '(hit, simplex') := hs in
        if (hit : bool) then Ok (Gjk true simplex' (Ok cp0))
        else gjk_loop A B cp0 tol n' simplex' direction'
  end.
(** GJK, gjk.h:207-271. The counter is an int in the code, so maxIterations below
    2^31 is assumed; the call of closestPointOnSimplex before the final
    assignment has no effect. *)
Definition gjk (A B simplex : list vec3) (cp0 : vec3) (tol : Qc) (maxIterations : nat) : res gjk_result :=
  a0 <- get A 0 ;; b0 <- get B 0 ;;
  let d := v3sub b0 a0 in
  let direction := if v3sq d =? 0 then V3 1 0 0 else d in
  point <- support A B direction ;;
  gjk_loop A B cp0 tol maxIterations (simplex ++ [point]) (v3neg point).
