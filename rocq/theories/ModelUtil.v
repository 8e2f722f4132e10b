(** Model of small parts of cmmcore: segmentsDistance (numeric_utils.h),
    vectorColumn and calc_epsilon (utils.h), the normals of a polygon
    (polygon.h) and SphericalAABB (aabb.h). Over the reals where lengths and
    angles are needed; [fl] is the rounding of a double to float in sqrtf. *)
From Coq Require Import List ZArith QArith Qcanon Reals Bool.
From Verif Require Import Base ModelMemView ModelPlane ModelNewton ModelVecOps.
Import ListNotations.
Local Open Scope R_scope.

(** segmentsDistance with the parameters and the points, numeric_utils.h:15-37;
    result: distance, t, u, cpt1, cpt2 *)
Definition segments_distance (fl : R -> R) (p1 p2 q1 q2 : v3r) : R * R * R * v3r * v3r :=
  let d1 := rvsub p2 p1 in let d2 := rvsub q2 q1 in let r := rvsub p1 q1 in
  let a := rvdot d1 d1 in let b := rvdot d1 d2 in let c := rvdot d2 d2 in
  let d := rvdot d1 r in let e := rvdot d2 r in
  let denom := a * c - b * b in
  let '(t, u) := if Req_EM_T denom 0 then (0, 0) else ((b * e - c * d) / denom, (a * e - b * d) / denom) in
  let cpt1 := rvadd p1 (rvscale d1 t) in let cpt2 := rvadd q1 (rvscale d2 u) in
  (rvlength fl (rvsub cpt2 cpt1), t, u, cpt1, cpt2).
(** the overload that returns the distance only, numeric_utils.h:38-58 *)
Definition segments_distance_only (fl : R -> R) (p1 p2 q1 q2 : v3r) : R :=
  let d1 := rvsub p2 p1 in let d2 := rvsub q2 q1 in let r := rvsub p1 q1 in
  let a := rvdot d1 d1 in let b := rvdot d1 d2 in let c := rvdot d2 d2 in
  let d := rvdot d1 r in let e := rvdot d2 r in
  let denom := a * c - b * b in
  let '(t, u) := if Req_EM_T denom 0 then (0, 0) else ((b * e - c * d) / denom, (a * e - b * d) / denom) in
  rvlength fl (rvsub (rvadd q1 (rvscale d2 u)) (rvadd p1 (rvscale d1 t))).

(** std::vector::resize: new elements are [d] *)
Definition resize {A} (d : A) (l : list A) (n : nat) : list A := firstn n l ++ repeat d (n - length l).
(** vectorColumn, utils.h:33-47; [d] is the default value of the element type.
    [columnIndex < row.size()] and row[columnIndex] in one step. *)
Definition vector_column {A} (d : A) (matrix : list (list A)) (column_index : nat) (column : list A) : res (list A) :=
  row0 <- get matrix 0 ;;
  for_up (length matrix) 0 (fun i column =>
    row <- get matrix i ;;
    match nth_error row column_index with
    | Some x => set_nth column i x
    | None => Throw EOutOfRange
    end) (resize d column (length row0)).

(** calc_epsilon, utils.h:56-64, EPS_DELTA, utils.h:31: the literals are the
    doubles 1e-12, 2^-52 and 2^-1074. The product is exact. *)
Definition EPS_DELTA : Qc := qc 4951760157141521 4951760157141521099596496896.
Definition calc_epsilon (x : Qc) : Qc :=
  let relative := (qc 1 4503599627370496 * Qcabs x)%Qc in
  let absolute := Q2Qc (1 # 2 ^ 1074) in
  if (Qcabs x <? EPS_DELTA)%Qc then absolute else relative.

(** the edge normal of polygonNormals and polygonUniqueNormals, polygon.h:128, 140 *)
Definition edge_normal (p q : v2r) : v2r := RV2 (r2y q - r2y p) (r2x p - r2x q).
(** polygonNormals, polygon.h:124-133; unitize, vec.h:181-191, divides like unit *)
Definition polygon_normals (normalize : bool) (P : list v2r) (normals : list v2r) : res (list v2r) :=
  for_up (length P) 0 (fun i normals =>
    let j := Nat.modulo (i + 1) (length P) in
    q <- get P j ;; p <- get P i ;;
    let normals := normals ++ [edge_normal p q] in
    if normalize then x <- get normals i ;; u <- r2unit x ;; set_nth normals i u else Ok normals) normals.

(** a conversion of a double to int: towards zero *)
Definition rtrunc (x : R) : Z := if Rle_dec 0 x then Int_part x else (- Int_part (- x))%Z.
(** quantize, cm_hash.h:19-22, with 15 = std::numeric_limits<double>::digits10 *)
Definition quantize15 (x : R) : res Z := int_op (rtrunc (x * 15)).
(** Normal2Hash, polygon.h:20-33: returns bool. A shift of a negative int is
    taken as the product by 2. *)
Definition normal_hash (a : v2r) : res bool :=
  u <- r2unit a ;;
  x <- quantize15 (r2x u) ;; y <- quantize15 (r2y u) ;; x1 <- quantize15 (- r2x u) ;; y1 <- quantize15 (- r2y u) ;;
  sy <- int_op (2 * y) ;; sy1 <- int_op (2 * y1) ;;
  Ok (negb (Z.max (Z.lxor x sy) (Z.lxor x1 sy1) =? 0)%Z).
(** operator== of vec2, vec.h:103-108; contains, polygon.h:45-47: std::find *)
Definition r2eqb (a b : v2r) : bool := near (r2x a) (r2x b) && near (r2y a) (r2y b).
Definition normals_contain (s : list v2r) (n : v2r) : bool := existsb (fun x => r2eqb x n) s.
(** an element of std::unordered_set with the same hash for which Normal2Equal,
    polygon.h:34-41, holds. The set is the list of its elements; elements whose
    hash differs are not compared. *)
Fixpoint find_normal (s : list v2r) (h : bool) (n : v2r) : res bool :=
  match s with
  | [] => Ok false
  | x :: s => hx <- normal_hash x ;;
      if Bool.eqb hx h then c <- r2collinear x n ;; if c then Ok true else find_normal s h n else find_normal s h n
  end.
Definition insert_normal (s : list v2r) (n : v2r) : res (list v2r) :=
  h <- normal_hash n ;; found <- find_normal s h n ;; Ok (if found then s else s ++ [n]).
(** polygonUniqueNormals, polygon.h:136-154 *)
Definition unique_normals (normalize : bool) (P : list v2r) (s : list v2r) : res (list v2r) :=
  for_up (length P) 0 (fun i s =>
    let j := Nat.modulo (i + 1) (length P) in
    q <- get P j ;; p <- get P i ;;
    let n := edge_normal p q in
    if normals_contain s n then Ok s
    else n <- (if normalize then r2unit n else Ok n) ;; insert_normal s n) s.

(** SphericalAABB, aabb.h:302-305: start and end per axis *)
Record sbox := SB { sb_start : v3r; sb_end : v3r }.
(** project_to_sphere, aabb.h:344-352 *)
Definition project_to_sphere (fl : R -> R) (center : v3r) (pts : list v3r) : list v3r :=
  map (fun p => rvunit fl (rvsub p center)) pts.
(** std::adjacent_difference, aabb.h:362 *)
Definition adjacent_difference (l : list R) : list R :=
  match l with [] => [] | a :: r => a :: map (fun xy => snd xy - fst xy) (combine l r) end.
(** std::max_element and std::distance, aabb.h:365-366: index of the first largest *)
Definition max_element (l : list R) : nat :=
  fold_left (fun best i => if Rlt_dec (nth best l 0) (nth i l 0) then i else best) (seq 1 (length l - 1)) 0%nat.
(** find_smallest_wedge, aabb.h:354-370. [sort] is std::sort. M_PI is taken as
    PI. For no points angle_diffs[0] does not exist. *)
Definition smallest_wedge (sort : list R -> list R) (points : list v2r) : res (R * R) :=
  let angles := sort (map (fun p => ratan2 (r2y p) (r2x p)) points) in
  a0 <- get angles 0 ;; back <- get angles (length angles - 1) ;;
  diffs <- set_nth (adjacent_difference angles) 0 (a0 + 2 * PI - back) ;;
  let k := max_element diffs in
  s <- get angles k ;; e <- get angles (Nat.modulo (k + 1) (length angles)) ;;
  Ok (s, e).
(** the constructor, aabb.h:309-329 *)
Definition sbox_make (fl : R -> R) (sort : list R -> list R) (center : v3r) (pts : list v3r) : res sbox :=
  let sp := project_to_sphere fl center pts in
  '(s0, e0) <- smallest_wedge sort (map (fun p => RV2 (ry p) (rz p)) sp) ;;
  '(s1, e1) <- smallest_wedge sort (map (fun p => RV2 (rz p) (rx p)) sp) ;;
  '(s2, e2) <- smallest_wedge sort (map (fun p => RV2 (rx p) (ry p)) sp) ;;
  Ok (SB (RV s0 s1 s2) (RV e0 e1 e2)).
(** separable, aabb.h:331-340; intersects, 342-344 *)
Definition rltb (a b : R) : bool := if Rlt_dec a b then true else false.
Definition axis_apart (s e s' e' : R) : bool := (rltb e s' && rltb s e') || (rltb e' s && rltb s' e).
Definition sbox_separable (a b : sbox) : bool :=
  axis_apart (rx (sb_start a)) (rx (sb_end a)) (rx (sb_start b)) (rx (sb_end b)) ||
  axis_apart (ry (sb_start a)) (ry (sb_end a)) (ry (sb_start b)) (ry (sb_end b)) ||
  axis_apart (rz (sb_start a)) (rz (sb_end a)) (rz (sb_start b)) (rz (sb_end b)).
Definition sbox_intersects (a b : sbox) : bool := negb (sbox_separable a b).
(** SphericalAABBTest, separability.h:280-284; the centre defaults to 0 *)
Definition spherical_aabb_test (fl : R -> R) (sort : list R -> list R) (pts1 pts2 : list v3r) : res bool :=
  a <- sbox_make fl sort (RV 0 0 0) pts1 ;; b <- sbox_make fl sort (RV 0 0 0) pts2 ;; Ok (sbox_separable a b).
