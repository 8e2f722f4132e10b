(** convex_hull2d once more, with every arithmetic operation followed by a rounding.
    [fl] as in ModelRound: kinds 5 to 8 are the products that are added at once
    and may be fused, in orientation (5, 6) and distSq (7, 8). *)
From Coq Require Import List ZArith QArith Qcanon Bool.
From Verif Require Import Base ModelVec ModelPolygon ModelRound.
Import ListNotations.
Open Scope Qc_scope.

Section Rounded.
Variable fl : nat -> Qc -> option Qc.

(** orientation, convexhull2d.h:40-45 *)
Definition forient_val (p q r : vec2) : res Qc :=
  a <- rnd fl 0 (uy q - uy p) ;; b <- rnd fl 0 (ux r - ux q) ;; m1 <- rnd fl 5 (a * b) ;;
  c <- rnd fl 0 (ux q - ux p) ;; d <- rnd fl 0 (uy r - uy q) ;; m2 <- rnd fl 6 (c * d) ;;
  rnd fl 0 (m1 - m2).
Definition forientation (p q r : vec2) : res nat :=
  v <- forient_val p q r ;; Ok (if Qcabs v <? lit_1em9 then 0%nat else if 0 <? v then 1%nat else 2%nat).
(** distSq, convexhull2d.h:31-33 *)
Definition fdist_sq2 (p q : vec2) : res Qc :=
  a <- rnd fl 0 (ux p - ux q) ;; m1 <- rnd fl 7 (a * a) ;;
  b <- rnd fl 0 (uy p - uy q) ;; m2 <- rnd fl 8 (b * b) ;;
  rnd fl 0 (m1 + m2).
(** PointComparator, convexhull2d.h:48-62 *)
Definition fpoint_before (p0 p1 p2 : vec2) : res bool :=
  o <- forientation p0 p1 p2 ;;
  if Nat.eqb o 0 then (a <- fdist_sq2 p0 p1 ;; b <- fdist_sq2 p0 p2 ;; Ok (a <? b)) else Ok (Nat.eqb o 2).

(** the search for the first point, convexhull2d.h:70-76 *)
Definition flowest_index (P : list vec2) : res nat :=
  for_up (length P - 1) 1 (fun i ymin => a <- get P i ;; b <- get P ymin ;;
    if uy a <? uy b then Ok i
    else d <- rnd fl 0 (uy a - uy b) ;; Ok (if (Qcabs d <? lit_1em9) && (ux a <? ux b) then i else ymin)) 0%nat.

(** std::sort, convexhull2d.h:86. Which pairs it compares is open; a comparison of
    any pair that leaves the range of normal numbers ends the run. *)
Definition fsorted (sort : (vec2 -> vec2 -> bool) -> list vec2 -> list vec2) (p0 : vec2) (l : list vec2) : res (list vec2) :=
  _ <- mapM (fun a => mapM (fpoint_before p0 a) l) l ;;
  Ok (sort (fun a b => match fpoint_before p0 a b with Ok c => c | _ => false end) l).

(** keeping the farthest of the points in one direction, convexhull2d.h:89-96 *)
Fixpoint fkeep_far (p0 : vec2) (l : list vec2) : res (list vec2) :=
  match l with
  | [] => Ok []
  | [p] => Ok [p]
  | p :: ((q :: _) as rest) =>
      o <- forientation p0 p q ;; m <- fkeep_far p0 rest ;; Ok (if Nat.eqb o 0 then m else p :: m)
  end.
(** the stack, convexhull2d.h:108-113 *)
Fixpoint fpop_right (hull : list vec2) (p : vec2) : res (list vec2) :=
  match hull with
  | b :: ((a :: _) as rest) => o <- forientation a b p ;; if negb (Nat.eqb o 2) then fpop_right rest p else Ok hull
  | _ => Ok hull
  end.
Fixpoint fscan (hull rest : list vec2) : res (list vec2) :=
  match rest with [] => Ok hull | p :: rest => h <- fpop_right hull p ;; fscan (p :: h) rest end.

(** convex_hull2d, convexhull2d.h:65-116; the argument, reordered in place, is left out *)
Definition fconvex_hull2d (sort : (vec2 -> vec2 -> bool) -> list vec2 -> list vec2) (P : list vec2) : res (list vec2) :=
  if Nat.ltb (length P) 3 then Ok P else
  k <- flowest_index P ;;
  P <- swap_front P k ;;
  match P with
  | [] => UB
  | p0 :: rest =>
      s <- fsorted sort p0 rest ;;
      l <- fkeep_far p0 s ;;
      match l with
      | p1 :: p2 :: more => h <- fscan [p2; p1; p0] more ;; Ok (rev h)
      | _ => Ok []
      end
  end.

End Rounded.
