(** polygonRelationship2D and SAT2D once more, with every arithmetic operation followed
    by a rounding. [fl] as in ModelRound: kinds 9 and 10 are the two products of a dot
    product, which may be fused with the addition. *)
From Coq Require Import List ZArith QArith Qcanon Bool.
From Verif Require Import Base ModelVec ModelAabb ModelPolygon ModelRound.
Import ListNotations.
Open Scope Qc_scope.

Section Rounded.
Variable fl : nat -> Qc -> option Qc.

(** vec2::dot, vec.h:162-164 *)
Definition fdot2 (a b : vec2) : res Qc :=
  m1 <- rnd fl 9 (ux a * ux b) ;; m2 <- rnd fl 10 (uy a * uy b) ;; rnd fl 0 (m1 + m2).

(** the test in pointInPolygon2D, polygon.h:61-64: && leaves the quotient out when the
    height of the point is not between those of the ends *)
Definition fcrosses (p pj pi : vec2) : res bool :=
  if ((uy pi <=? uy p) && (uy p <? uy pj)) || ((uy pj <=? uy p) && (uy p <? uy pi)) then
    dx <- rnd fl 0 (ux pj - ux pi) ;; dy <- rnd fl 0 (uy p - uy pi) ;; m <- rnd fl 0 (dx * dy) ;;
    h <- rnd fl 0 (uy pj - uy pi) ;; q <- fdiv fl m h ;; s <- rnd fl 0 (q + ux pi) ;;
    Ok (ux p <? s)
  else Ok false.
(** pointInPolygon2D, polygon.h:57-69 *)
Fixpoint fpip_loop (p : vec2) (edges : list (vec2 * vec2)) (inside : bool) : res bool :=
  match edges with
  | [] => Ok inside
  | e :: rest => c <- fcrosses p (fst e) (snd e) ;; fpip_loop p rest (if c then negb inside else inside)
  end.
Definition fpoint_in_polygon (P : list vec2) (p : vec2) : res bool := fpip_loop p (prev_pairs P) false.
(** std::all_of, polygon.h:113-116: ends at the first point outside *)
Fixpoint fall_inside (P Q : list vec2) : res bool :=
  match Q with [] => Ok true | q :: Q => b <- fpoint_in_polygon P q ;; if b then fall_inside P Q else Ok false end.

(** projectPolygon, polygon.h:72-81 *)
Fixpoint fproject_loop (axis : vec2) (P : list vec2) (mm : Qc * Qc) : res (Qc * Qc) :=
  match P with
  | [] => Ok mm
  | p :: P => q <- fdot2 p axis ;; fproject_loop axis P (Qcmin (fst mm) q, Qcmax (snd mm) q)
  end.
Definition fproject_polygon (P : list vec2) (axis : vec2) : res (Qc * Qc) := fproject_loop axis P (DBL_MAX, DBL_LOWEST).
(** axes, polygon.h:88-96 *)
Definition fedge_axes (P : list vec2) : res (list vec2) :=
  mapM (fun e => x <- rnd fl 0 (ux (snd e) - ux (fst e)) ;; y <- rnd fl 0 (uy (snd e) - uy (fst e)) ;; Ok (V2 (- y) x)) (next_pairs P).
(** the loop over the axes, polygon.h:98-110 *)
Fixpoint faxis_loop (P1 P2 : list vec2) (touching : bool) (axes : list vec2) : res (option bool) :=
  match axes with
  | [] => Ok (Some touching)
  | ax :: rest =>
      a <- fproject_polygon P1 ax ;; b <- fproject_polygon P2 ax ;;
      if negb (check_overlap a b) then Ok None
      else faxis_loop P1 P2 (touching || ((fst a =? snd b) || (snd a =? fst b))) rest
  end.
(** polygonRelationship2D, polygon.h:71-122 *)
Definition fpolygon_relationship (P1 P2 : list vec2) : res relationship :=
  a1 <- fedge_axes P1 ;; a2 <- fedge_axes P2 ;;
  t <- faxis_loop P1 P2 false (a1 ++ a2) ;;
  match t with
  | None => Ok DISTANCE
  | Some touching =>
      in12 <- fall_inside P2 P1 ;; in21 <- fall_inside P1 P2 ;;
      Ok (if in12 || in21 then INTERSECT else if touching then TOUCH else INTERSECT)
  end.

(** vec2::operator==, vec.h:103-108 *)
Definition fv2eq (a b : vec2) : res bool :=
  x <- rnd fl 0 (ux a - ux b) ;; if Qcabs x <? DBL_EPS then (y <- rnd fl 0 (uy a - uy b) ;; Ok (Qcabs y <? DBL_EPS)) else Ok false.
(** contains, polygon.h:45-47: ends at the first normal that is equal *)
Fixpoint fcontains_normal (s : list vec2) (v : vec2) : res bool :=
  match s with [] => Ok false | x :: s => b <- fv2eq x v ;; if b then Ok true else fcontains_normal s v end.
(** polygonProject, separability.h:26-34, with vec2::projection, vec.h:68. For the zero
    direction every projection is 0/0, as in ModelPolygon. *)
Fixpoint fsat_project_loop (d : vec2) (P : list vec2) (mm : Qc * Qc) : res (Qc * Qc) :=
  match P with
  | [] => Ok mm
  | p :: P => a <- fdot2 p d ;; b <- fdot2 d d ;; q <- fdiv fl a b ;; fsat_project_loop d P (Qcmin (fst mm) q, Qcmax (snd mm) q)
  end.
Definition fpolygon_project (P : list vec2) (d : vec2) : res (Qc * Qc) :=
  if (ux d =? 0) && (uy d =? 0) then Ok (DBL_MAX, DBL_LOWEST) else fsat_project_loop d P (DBL_MAX, DBL_LOWEST).
(** the loops of SAT2D, separability.h:53-97; [keep] as in ModelPolygon *)
Fixpoint fsat_loop (keep : list vec2 -> vec2 -> bool) (A B : list vec2) (normals : list vec2) (edges : list (vec2 * vec2)) : res bool :=
  match edges with
  | [] => Ok false
  | (p, q) :: rest =>
      x <- rnd fl 0 (uy q - uy p) ;; y <- rnd fl 0 (ux p - ux q) ;; let n := V2 x y in
      found <- fcontains_normal normals n ;;
      if found then fsat_loop keep A B normals rest
      else
        a <- fpolygon_project A n ;; b <- fpolygon_project B n ;;
        if intervals_apart a b then Ok true
        else fsat_loop keep A B (if keep normals n then n :: normals else normals) rest
  end.
(** SAT2D, separability.h:43-98 *)
Definition fsat2d (keep : list vec2 -> vec2 -> bool) (A B : list vec2) : res bool :=
  match A, B with
  | [], _ | _, [] => Throw ERuntime
  | [a], [b] => e <- fv2eq b a ;; Ok (negb e)
  | [_], _ => fsat_loop keep A B [] (next_pairs B)
  | _, _ => fsat_loop keep A B [] (next_pairs A)
  end.

End Rounded.
