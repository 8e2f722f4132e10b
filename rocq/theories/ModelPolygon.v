(** Planar polygons: cmmcore/polygon.h, SAT2D of separability.h and
    _convexhull/convexhull2d.h, over exact numbers. *)
From Coq Require Import List ZArith QArith Qcanon Bool.
From Verif Require Import Base ModelVec ModelAabb.
Import ListNotations.
Open Scope Qc_scope.

(** (polygon[j], polygon[i]) for i = 0 .. n-1 and j = i - 1, starting with
    j = n - 1: the loop heads of pointInPolygon2D *)
Definition prev_pairs (P : list vec2) : list (vec2 * vec2) :=
  match P with [] => [] | a :: _ => combine (last P a :: P) P end.
(** (polygon[i], polygon[(i + 1) % n]) for i = 0 .. n-1 *)
Definition next_pairs (P : list vec2) : list (vec2 * vec2) :=
  match P with [] => [] | a :: t => combine P (t ++ [a]) end.

(** the test in pointInPolygon2D, polygon.h:61-64; the quotient is only formed
    when the two heights differ *)
Definition crosses (p pj pi : vec2) : bool :=
  (((uy pi <=? uy p) && (uy p <? uy pj)) || ((uy pj <=? uy p) && (uy p <? uy pi)))
  && (ux p <? (ux pj - ux pi) * (uy p - uy pi) / (uy pj - uy pi) + ux pi).
(** pointInPolygon2D, polygon.h:57-69 *)
Definition point_in_polygon (P : list vec2) (p : vec2) : bool :=
  fold_left (fun inside e => if crosses p (fst e) (snd e) then negb inside else inside) (prev_pairs P) false.

(** PolygonRelationship2D, polygon.h:49-53 *)
Inductive relationship := INTERSECT | TOUCH | DISTANCE.

(** projectPolygon and checkOverlap, polygon.h:72-86 *)
Definition project_polygon (P : list vec2) (axis : vec2) : Qc * Qc :=
  fold_left (fun mm p => let q := v2dot p axis in (Qcmin (fst mm) q, Qcmax (snd mm) q)) P (DBL_MAX, DBL_LOWEST).
Definition check_overlap (a b : Qc * Qc) : bool := (fst a <=? snd b) && (fst b <=? snd a).
(** axes, polygon.h:88-96 *)
Definition edge_axes (P : list vec2) : list vec2 :=
  map (fun e => let edge := v2sub (snd e) (fst e) in V2 (- uy edge) (ux edge)) (next_pairs P).
(** the loop over the axes, polygon.h:98-110: None when an axis separates,
    otherwise the flag touching *)
Fixpoint axis_loop (P1 P2 : list vec2) (touching : bool) (axes : list vec2) : option bool :=
  match axes with
  | [] => Some touching
  | ax :: rest =>
      let a := project_polygon P1 ax in let b := project_polygon P2 ax in
      if negb (check_overlap a b) then None
      else axis_loop P1 P2 (touching || ((fst a =? snd b) || (snd a =? fst b))) rest
  end.
(** polygonRelationship2D, polygon.h:71-122 *)
Definition polygon_relationship (P1 P2 : list vec2) : relationship :=
  match axis_loop P1 P2 false (edge_axes P1 ++ edge_axes P2) with
  | None => DISTANCE
  | Some touching =>
      if forallb (point_in_polygon P2) P1 || forallb (point_in_polygon P1) P2 then INTERSECT
      else if touching then TOUCH else INTERSECT
  end.

(** std::numeric_limits<double>::epsilon() *)
Definition DBL_EPS : Qc := qc 1 4503599627370496.
(** vec2::operator==, vec.h:103-108 *)
Definition v2eq (a b : vec2) : bool := (Qcabs (ux a - ux b) <? DBL_EPS) && (Qcabs (uy a - uy b) <? DBL_EPS).
(** contains, polygon.h:45-47: std::find, hence operator== *)
Definition contains_normal (s : list vec2) (v : vec2) : bool := existsb (fun x => v2eq x v) s.

(** polygonProject, separability.h:26-34. For the zero direction every
    projection is 0/0, a NaN, which std::min and std::max pass over. *)
Definition polygon_project (P : list vec2) (d : vec2) : Qc * Qc :=
  if (ux d =? 0) && (uy d =? 0) then (DBL_MAX, DBL_LOWEST)
  else fold_left (fun mm p => let q := v2dot p d / v2dot d d in (Qcmin (fst mm) q, Qcmax (snd mm) q)) P (DBL_MAX, DBL_LOWEST).
(** swapIntervals and the test on its result, separability.h:37-41, 67, 86 *)
Definition intervals_apart (a b : Qc * Qc) : bool :=
  let '(m1, m2) := if snd b <? snd a then (b, a) else (a, b) in snd m1 <? fst m2.

(** the loops of SAT2D, separability.h:53-97, over the edges of one polygon.
    Whether a normal that goes into the unordered set is kept depends on its hash
    and on rounding in the comparison of directions: [keep] decides. *)
Fixpoint sat_loop (keep : list vec2 -> vec2 -> bool) (A B : list vec2) (normals : list vec2) (edges : list (vec2 * vec2)) : bool :=
  match edges with
  | [] => false
  | (p, q) :: rest =>
      let n := V2 (uy q - uy p) (ux p - ux q) in
      if contains_normal normals n then sat_loop keep A B normals rest
      else if intervals_apart (polygon_project A n) (polygon_project B n) then true
      else sat_loop keep A B (if keep normals n then n :: normals else normals) rest
  end.
(** SAT2D, separability.h:43-98 *)
Definition sat2d (keep : list vec2 -> vec2 -> bool) (A B : list vec2) : res bool :=
  match A, B with
  | [], _ | _, [] => Throw ERuntime
  | [a], [b] => Ok (negb (v2eq b a))
  | [_], _ => Ok (sat_loop keep A B [] (next_pairs B))
  | _, _ => Ok (sat_loop keep A B [] (next_pairs A))
  end.

(** 1e-9 *)
Definition lit_1em9 : Qc := qc 4835703278458517 4835703278458516698824704.
(** orientation, convexhull2d.h:40-45 *)
Definition orient_val (p q r : vec2) : Qc := (uy q - uy p) * (ux r - ux q) - (ux q - ux p) * (uy r - uy q).
Definition orientation (p q r : vec2) : nat :=
  let v := orient_val p q r in if Qcabs v <? lit_1em9 then 0%nat else if 0 <? v then 1%nat else 2%nat.
(** distSq and PointComparator, convexhull2d.h:31-33, 48-62 *)
Definition dist_sq2 (p q : vec2) : Qc := (ux p - ux q) * (ux p - ux q) + (uy p - uy q) * (uy p - uy q).
Definition point_before (p0 p1 p2 : vec2) : bool :=
  let o := orientation p0 p1 p2 in if Nat.eqb o 0 then dist_sq2 p0 p1 <? dist_sq2 p0 p2 else Nat.eqb o 2.

(** the search for the first point, convexhull2d.h:70-76 *)
Definition lowest_index (P : list vec2) : res nat :=
  for_up (length P - 1) 1 (fun i ymin => a <- get P i ;; b <- get P ymin ;;
    Ok (if (uy a <? uy b) || ((Qcabs (uy a - uy b) <? lit_1em9) && (ux a <? ux b)) then i else ymin)) 0%nat.
(** swap(points[0], points[ymin]), convexhull2d.h:79 *)
Definition swap_front (P : list vec2) (k : nat) : res (list vec2) :=
  a <- get P 0 ;; b <- get P k ;; P <- set_nth P 0 b ;; set_nth P k a.

(** the loop that keeps the farthest of the points in one direction,
    convexhull2d.h:89-96; what is left over from points[m] on is never read
    again, so the result is the list of the first m points *)
Fixpoint keep_far (p0 : vec2) (l : list vec2) : list vec2 :=
  match l with
  | [] => []
  | [p] => [p]
  | p :: ((q :: _) as rest) => if Nat.eqb (orientation p0 p q) 0 then keep_far p0 rest else p :: keep_far p0 rest
  end.
(** the stack, top first: while (hull.size() > 1 && ...) pop, push,
    convexhull2d.h:108-113 *)
Fixpoint pop_right (hull : list vec2) (p : vec2) : list vec2 :=
  match hull with
  | b :: ((a :: _) as rest) => if negb (Nat.eqb (orientation a b p) 2) then pop_right rest p else hull
  | _ => hull
  end.
Definition scan (hull rest : list vec2) : list vec2 := fold_left (fun h p => p :: pop_right h p) rest hull.

(** convex_hull2d, convexhull2d.h:65-116. [sort] is std::sort with the
    comparator. The argument is also reordered in place; that effect is left out. *)
Definition convex_hull2d (sort : (vec2 -> vec2 -> bool) -> list vec2 -> list vec2) (P : list vec2) : res (list vec2) :=
  if Nat.ltb (length P) 3 then Ok P else
  k <- lowest_index P ;;
  P <- swap_front P k ;;
  match P with
  | [] => UB
  | p0 :: rest =>
      let l := keep_far p0 (sort (point_before p0) rest) in
      match l with
      | p1 :: p2 :: more => Ok (rev (scan [p2; p1; p0] more))
      | _ => Ok []
      end
  end.
