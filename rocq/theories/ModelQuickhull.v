(** Model of cmmcore/_convexhull/quickhull.hpp: the class quick_hull for
    dimension_ = 3, the only value it is used with, and convex_hull3d. Numbers are
    exact reals. An iterator into the points is the position of the point.
    Assertions and check(), which only runs inside one, are not modelled, nor is
    inner_point_, which only check() reads. *)
From Coq Require Import List Arith Bool Reals.
From Verif Require Import Base ModelPlane.
Import ListNotations.
Local Open Scope R_scope.

(** std::numeric_limits<double>::epsilon(), cm_limits.h:9 *)
Definition machine_eps : R := / 2 ^ 52.

(** a position 0, 1, 2 in an array of dimension_ elements *)
Inductive three := I0 | I1 | I2.
Definition three_eqb (a b : three) : bool := match a, b with I0, I0 => true | I1, I1 => true | I2, I2 => true | _, _ => false end.
(** an array of dimension_ elements *)
Record tri (A : Type) := T3 { t0 : A; t1 : A; t2 : A }.
Arguments T3 {A} t0 t1 t2. Arguments t0 {A} t. Arguments t1 {A} t. Arguments t2 {A} t.
Definition tget {A} (v : three) (t : tri A) : A := match v with I0 => t0 t | I1 => t1 t | I2 => t2 t end.
Definition tset {A} (v : three) (x : A) (t : tri A) : tri A :=
  match v with I0 => T3 x (t1 t) (t2 t) | I1 => T3 (t0 t) x (t2 t) | I2 => T3 (t0 t) (t1 t) x end.

(** struct facet, quickhull.hpp:113-135: vertices_, neighbours_, outside_,
    coplanar_, normal_ and D *)
Record facet := Facet { fvert : tri nat; fnbr : tri nat; fout : list nat; fcop : list nat; fnorm : v3r; fD : R }.
Definition with_nbr (f : facet) (n : tri nat) : facet := Facet (fvert f) n (fout f) (fcop f) (fnorm f) (fD f).
Definition with_lists (f : facet) (o c : list nat) : facet := Facet (fvert f) (fnbr f) o c (fnorm f) (fD f).
(** facet::distance, quickhull.hpp:127-134 *)
Definition distance (f : facet) (p : v3r) : R := fD f + rx (fnorm f) * rx p + ry (fnorm f) * ry p + rz (fnorm f) * rz p.

(** the members of quick_hull that change: facets_, removed_facets_ (the last
    element first), ranking_ in increasing order of the keys, outside_.
    ranking_meta_ only finds the element of ranking_ for a facet *)
Record qhull := QH { facets : list facet; removed : list nat; ranking : list (R * nat); outside : list nat }.

(** ** Determinants *)
(** the first row with the largest entry in absolute value at the front,
    quickhull.hpp:303-313: [max] and [pivot] so far, [j] is the position *)
Fixpoint find_pivot (j pivot : nat) (max : R) (rows : list (list R)) : nat * R :=
  match rows with
  | [] => (pivot, max)
  | r :: rest => let y := Rabs (hd 0 r) in if Rlt_dec max y then find_pivot (S j) j y rest else find_pivot (S j) pivot max rest
  end.
(** std::swap of the first row and row [p], quickhull.hpp:320-323 *)
Definition swap_rows (p : nat) (rows : list (list R)) : list (list R) :=
  match rows with
  | [] => []
  | r :: rest => match p with O => rows | S q => nth q rest r :: firstn q rest ++ r :: skipn (S q) rest end
  end.
(** mj[k] -= mji * mi[k] for the columns after the first, quickhull.hpp:326-335 *)
Definition eliminate (mi mj : list R) : list R :=
  let m := hd 0 mj / hd 0 mi in map (fun '(x, y) => y - m * x) (combine (tl mi) (tl mj)).
(** det, quickhull.hpp:294-338, on the part of the matrix that is left *)
Fixpoint lup (eps : R) (n : nat) (rows : list (list R)) : R :=
  match n with
  | O => 1
  | S m => match rows with
    | [] => 1
    | r :: rest =>
      let '(pivot, max) := find_pivot 1 0 (Rabs (hd 0 r)) rest in
      if Rlt_dec eps max then
        match swap_rows pivot rows with
        | [] => 1
        | mi :: others => (if Nat.eqb pivot 0 then 1 else - 1) * hd 0 mi * lup eps m (map (eliminate mi) others)
        end
      else 0
    end
  end.

(** set_hyperplane_equation, quickhull.hpp:345-366, with matrix_transpose_copy
    and matrix_restore, 251-278. A normal of length 0 makes the components NaN,
    which is outside of the model (UB). *)
Definition hyperplane (eps : R) (a b c : v3r) : res (v3r * R) :=
  let X := [rx a; rx b; rx c] in let Y := [ry a; ry b; ry c] in let Z := [rz a; rz b; rz c] in let one := [1; 1; 1] in
  let D := - lup eps 3 [X; Y; Z] in
  let nx := lup eps 3 [one; Y; Z] in let ny := lup eps 3 [X; one; Z] in let nz := lup eps 3 [X; Y; one] in
  let N := sqrt (nx * nx + ny * ny + nz * nz) in
  if Req_EM_T N 0 then UB else Ok (RV (nx / N) (ny / N) (nz / N), D / N).
Definition set_plane (eps : R) (pts : list v3r) (f : facet) : res facet :=
  a <- get pts (t0 (fvert f)) ;; b <- get pts (t1 (fvert f)) ;; c <- get pts (t2 (fvert f)) ;;
  '(n, d) <- hyperplane eps a b c ;; Ok (Facet (fvert f) (fnbr f) (fout f) (fcop f) n d).

(** ** Four points that span the space *)
(** sum over the components from [i] on *)
Definition dot_from (i : nat) (u v : list R) : R := fold_left (fun s '(x, y) => s + x * y) (combine (skipn i u) (skipn i v)) 0.
(** v[k] -= u[k] * s for k from [i] on *)
Definition sub_from (i : nat) (u : list R) (s : R) (v : list R) : list R :=
  firstn i v ++ map (fun '(x, y) => y - x * s) (combine (skipn i u) (skipn i v)).
(** the loop of orthonormalize, quickhull.hpp:382-418, from row [i] on; None is
    return false *)
Fixpoint householder (eps : R) (i : nat) (n : nat) (rows : list (list R)) : option (list (list R)) :=
  match n, rows with
  | S m, q :: rest =>
    let sum := dot_from i q q in
    let norm := sqrt sum in
    if Rlt_dec eps norm then
      let qii := nth i q 0 in
      let norm := if Rlt_dec qii 0 then - norm else norm in
      let factor := sqrt (sum + qii * norm) in
      if Rlt_dec eps factor then
        let q' := firstn i q ++ map (fun x => x / factor) ((qii + norm) :: skipn (S i) q) in
        option_map (cons q') (householder eps (S i) m (map (fun r => sub_from i q' (dot_from i q' r) r) rest))
      else None
    else None
  | _, _ => Some []
  end.
Definition comps (p : v3r) : list R := [rx p; ry p; rz p].
Definition minus (u v : list R) : list R := map (fun '(x, y) => x - y) (combine u v).
(** one row of forward_transformation, quickhull.hpp:422-443: [unit] is row i of
    the identity, [rows] the packed rows, the first one being row [j] *)
Fixpoint transform (j : nat) (rows : list (list R)) (unit : list R) : list R :=
  match rows with
  | [] => unit
  | q :: rest => let v := transform (S j) rest unit in sub_from j q (dot_from j q v) v
  end.
Definition unit_row (i : nat) : list R := match i with O => [1; 0; 0] | S O => [0; 1; 0] | _ => [0; 0; 1] end.
(** the projection on the subspace orthogonal to [qs], quickhull.hpp:463-468, with multiply_and_add *)
Definition project (qs : list (list R)) (w : list R) : list R :=
  fold_left (fun pr q => map (fun '(x, y) => x + y * - dot_from 0 q w) (combine pr q)) qs w.
(** the loop over outside_, quickhull.hpp:459-474: distance_ and the position
    of furthest *)
Fixpoint furthest (pts : list v3r) (origin : v3r) (qs : list (list R)) (l : list nat) (pos : nat) (dist : R) (best : option nat) : res (option nat) :=
  match l with
  | [] => Ok best
  | i :: rest =>
    p <- get pts i ;;
    let pr := project qs (minus (comps p) (comps origin)) in
    let d := dot_from 0 pr pr in
    if Rlt_dec dist d then furthest pts origin qs rest (S pos) d (Some pos) else furthest pts origin qs rest (S pos) dist best
  end.
(** steal_best, quickhull.hpp:445-481: the basis and outside_ afterwards, or
    None for return false *)
Definition steal_best (eps : R) (pts : list v3r) (basis out : list nat) : res (option (list nat * list nat)) :=
  o <- of_option (last (map Some basis) None) ;;
  origin <- get pts o ;;
  let rank := (length basis - 1)%nat in
  rows <- mapM (fun i => p <- get pts i ;; Ok (minus (comps p) (comps origin))) (firstn rank basis) ;;
  match householder eps 0 rank rows with
  | None => Ok None
  | Some packed =>
    let qs := map (fun i => transform 0 packed (unit_row i)) (seq 0 rank) in
    best <- furthest pts origin qs out 0 0 None ;;
    match best with
    | None => Ok None
    | Some k => i <- get out k ;; Ok (Some (basis ++ [i], firstn k out ++ skipn (S k) out))
    end
  end.
(** the loop of get_affine_basis, quickhull.hpp:798-803; [n] is the number of
    points the basis may still grow by *)
Fixpoint grow_basis (eps : R) (pts : list v3r) (n : nat) (basis out : list nat) : res (list nat * list nat) :=
  match n with
  | O => Ok (basis, out)
  | S m => s <- steal_best eps pts basis out ;;
    match s with None => Ok (basis, out) | Some (b, o) => grow_basis eps pts m b o end
  end.
(** get_affine_basis, quickhull.hpp:782-805: the basis and outside_ *)
Definition affine_basis (eps : R) (pts : list v3r) (out : list nat) : res (list nat * list nat) :=
  match out with [] => Ok ([], []) | i :: rest => grow_basis eps pts 3 [i] rest end.

(** ** Facets *)
(** partition, quickhull.hpp:531-552: [o] and [c] are the outside_ and coplanar_
    of the facet, [keep] the part of outside_ that was passed and stays;
    returns distance_, the lists and what is left of outside_ *)
Fixpoint partition_loop (eps : R) (pts : list v3r) (f : facet) (l : list nat) (dist : R) (o c keep : list nat) : res (R * list nat * list nat * list nat) :=
  match l with
  | [] => Ok (dist, o, c, keep)
  | i :: rest =>
    p <- get pts i ;;
    let d := distance f p in
    if Rlt_dec eps d then
      if Rlt_dec dist d then partition_loop eps pts f rest d (i :: o) c keep
      else partition_loop eps pts f rest dist (o ++ [i]) c keep
    else if Rlt_dec d (- eps) then partition_loop eps pts f rest dist o c (keep ++ [i])
    else partition_loop eps pts f rest dist o (c ++ [i]) (keep ++ [i])
  end.
(** the position where multimap::emplace puts an element: after those with the
    same key *)
Fixpoint insert_rank (d : R) (f : nat) (l : list (R * nat)) : list (R * nat) :=
  match l with
  | [] => [(d, f)]
  | (e, g) :: rest => if Rlt_dec d e then (d, f) :: l else (e, g) :: insert_rank d f rest
  end.
(** rank(partition(facets_[k]), k), quickhull.hpp:511-517, 859 and 892 *)
Definition rank_facet (eps : R) (pts : list v3r) (k : nat) (h : qhull) : res qhull :=
  f <- get (facets h) k ;;
  '(d, o, c, keep) <- partition_loop eps pts f (outside h) 0 (fout f) (fcop f) [] ;;
  fs <- set_nth (facets h) k (with_lists f o c) ;;
  Ok (QH fs (removed h) (if Rlt_dec eps d then insert_rank d k (ranking h) else ranking h) keep).
(** unrank, quickhull.hpp:519-527 *)
Definition unrank (k : nat) (h : qhull) : qhull :=
  QH (facets h) (k :: removed h) (filter (fun e => negb (Nat.eqb (snd e) k)) (ranking h)) (outside h).
(** add_facet, quickhull.hpp:485-503, with make_facet and reuse_facet, 148-160
    and 188-200 *)
Definition add_facet (vs : tri nat) (against : three) (apex nbr : nat) (h : qhull) : res (nat * qhull) :=
  match removed h with
  | [] => Ok (length (facets h),
      QH (facets h ++ [Facet (tset against apex vs) (tset against nbr (T3 0%nat 0%nat 0%nat)) [] [] (RV 0 0 0) 0]) [] (ranking h) (outside h))
  | k :: rest =>
    f <- get (facets h) k ;;
    fs <- set_nth (facets h) k (Facet (tset against apex vs) (tset against nbr (fnbr f)) (fout f) (fcop f) (fnorm f) (fD f)) ;;
    Ok (k, QH fs rest (ranking h) (outside h))
  end.
(** replace_neighbour, quickhull.hpp:560-572 *)
Definition replace_first (from to : nat) (t : tri nat) : tri nat :=
  if Nat.eqb (t0 t) from then T3 to (t1 t) (t2 t) else
  if Nat.eqb (t1 t) from then T3 (t0 t) to (t2 t) else
  if Nat.eqb (t2 t) from then T3 (t0 t) (t1 t) to else t.
Definition replace_neighbour (fs : list facet) (k from to : nat) : res (list facet) :=
  if Nat.eqb from to then Ok fs else
  f <- get fs k ;; set_nth fs k (with_nbr f (replace_first from to (fnbr f))).
(** ridge::operator==, quickhull.hpp:580-601 *)
Definition others (f : facet) (v : three) : list nat :=
  filter (fun i => negb (Nat.eqb i (tget v (fvert f)))) [t0 (fvert f); t1 (fvert f); t2 (fvert f)].
Definition ridge_eq (f : facet) (v : three) (g : facet) (w : three) : bool :=
  forallb (fun l => existsb (Nat.eqb l) (others g w)) (others f v).
(** the ridge of unique_ridges_ that equals ridge [v] of [f], and the rest. The
    hash of a ridge is that of its vertices other than the apex, so equal ridges
    have equal hashes, and the set finds the equal one, quickhull.hpp:604-611 *)
Fixpoint take_ridge (fs : list facet) (f : facet) (v : three) (l : list (nat * three)) : res (option (nat * three) * list (nat * three)) :=
  match l with
  | [] => Ok (None, [])
  | (k, w) :: rest =>
    g <- get fs k ;;
    if ridge_eq f v g w then Ok (Some (k, w), rest) else
    '(r, rest') <- take_ridge fs f v rest ;; Ok (r, (k, w) :: rest')
  end.
(** one pass of find_adjacent_facets, quickhull.hpp:626-636 *)
Definition match_ridge (k : nat) (v : three) (s : list facet * list (nat * three)) : res (list facet * list (nat * three)) :=
  let '(fs, ridges) := s in
  f <- get fs k ;;
  '(r, rest) <- take_ridge fs f v ridges ;;
  match r with
  | None => Ok (fs, (k, v) :: ridges)
  | Some (k', w) =>
    g <- get fs k' ;; fs <- set_nth fs k' (with_nbr g (tset w k (fnbr g))) ;;
    f <- get fs k ;; fs <- set_nth fs k (with_nbr f (tset v k' (fnbr f))) ;;
    Ok (fs, rest)
  end.
(** find_adjacent_facets, quickhull.hpp:615-637 *)
Definition find_adjacent (k : nat) (skip : three) (s : list facet * list (nat * three)) : res (list facet * list (nat * three)) :=
  let step v s := if three_eqb v skip then Ok s else match_ridge k v s in
  s <- step I0 s ;; s <- step I1 s ;; step I2 s.

(** ** Adding a point *)
(** the hull with newfacets_, unique_ridges_, visited_ and visible_ *)
Record walk := Walk { wh : qhull; wnew : list nat; wridges : list (nat * three); wvisited : list nat; wvisible : list nat }.
Definition mem (k : nat) (l : list nat) : bool := existsb (Nat.eqb k) l.
(** the new facet on side [v] of facet [f], quickhull.hpp:662-667 *)
Definition new_facet (eps : R) (pts : list v3r) (apex f : nat) (v : three) (nbr : nat) (s : walk) : res walk :=
  fc <- get (facets (wh s)) f ;;
  '(k, h) <- add_facet (fvert fc) v apex nbr (wh s) ;;
  fk <- get (facets h) k ;; fk <- set_plane eps pts fk ;; fs <- set_nth (facets h) k fk ;;
  fs <- replace_neighbour fs nbr f k ;;
  '(fs, ridges) <- find_adjacent k v (fs, wridges s) ;;
  Ok (Walk (QH fs (removed h) (ranking h) (outside h)) (wnew s ++ [k]) ridges (wvisited s) (wvisible s)).
(** one pass of the loop of process_visibles, quickhull.hpp:659-669 *)
Definition visit_side (eps : R) (pts : list v3r) (apex f : nat) (visit : nat -> walk -> res (bool * walk)) (v : three) (s : walk) : res walk :=
  fc <- get (facets (wh s)) f ;;
  let nbr := tget v (fnbr fc) in
  '(seen, s) <- visit nbr s ;;
  if (seen : bool) then Ok s else new_facet eps pts apex f v nbr s.
(** process_visibles, quickhull.hpp:644-672; [depth] bounds the recursion (UB
    when it is used up; the theorems show that it is not) *)
Fixpoint process_visibles (eps : R) (pts : list v3r) (apex : nat) (depth : nat) (f : nat) (s : walk) : res (bool * walk) :=
  match depth with
  | O => UB
  | S d =>
    if mem f (wvisited s) then Ok (mem f (wvisible s), s) else
    let s := Walk (wh s) (wnew s) (wridges s) (f :: wvisited s) (wvisible s) in
    fc <- get (facets (wh s)) f ;;
    p <- get pts apex ;;
    if Rlt_dec 0 (distance fc p) then
      fs <- set_nth (facets (wh s)) f (with_lists fc [] []) ;;
      let s := Walk (QH fs (removed (wh s)) (ranking (wh s)) (outside (wh s) ++ fout fc)) (wnew s) (wridges s) (wvisited s) (f :: wvisible s) in
      let side := visit_side eps pts apex f (process_visibles eps pts apex d) in
      s <- side I0 s ;; s <- side I1 s ;; s <- side I2 s ;;
      Ok (true, Walk (unrank f (wh s)) (wnew s) (wridges s) (wvisited s) (wvisible s))
    else Ok (false, s)
  end.
(** the body of the loop of create_convex_hull, quickhull.hpp:878-895, for the
    facet [f] of the last element of ranking_ *)
Fixpoint rank_all (eps : R) (pts : list v3r) (ks : list nat) (h : qhull) : res qhull :=
  match ks with [] => Ok h | k :: rest => h <- rank_facet eps pts k h ;; rank_all eps pts rest h end.
Definition add_point (eps : R) (pts : list v3r) (f : nat) (h : qhull) : res qhull :=
  fc <- get (facets h) f ;;
  match fout fc with
  | [] => UB
  | apex :: o =>
    fs <- set_nth (facets h) f (with_lists fc o (fcop fc)) ;;
    '(_, s) <- process_visibles eps pts apex (S (length fs)) f (Walk (QH fs (removed h) (ranking h) (outside h)) [] [] [] []) ;;
    h <- rank_all eps pts (wnew s) (wh s) ;;
    Ok (QH (facets h) (removed h) (ranking h) [])
  end.
(** the loop of create_convex_hull, quickhull.hpp:877-897; [n] bounds the number
    of passes (UB when it is used up; the theorems show that it is not) *)
Fixpoint hull_loop (eps : R) (pts : list v3r) (n : nat) (h : qhull) : res qhull :=
  match last (map Some (ranking h)) None with
  | None => Ok h
  | Some (_, f) => match n with O => UB | S m => h <- add_point eps pts f h ;; hull_loop eps pts m h end
  end.
(** std::sort(rbegin, rend): decreasing; facet numbers do not repeat *)
Fixpoint insert_desc (k : nat) (l : list nat) : list nat :=
  match l with [] => [k] | j :: rest => if Nat.ltb j k then k :: l else j :: insert_desc k rest end.
Definition sort_desc (l : list nat) : list nat := fold_right insert_desc [] l.
(** compactify, quickhull.hpp:674-700: the facets. ranking_ is empty here. *)
Fixpoint move_down (fs : list facet) (source destination : nat) (ns : list nat) : res (list facet) :=
  match ns with [] => Ok fs | n :: rest => fs <- replace_neighbour fs n source destination ;; move_down fs source destination rest end.
Fixpoint compactify (ks : list nat) (fs : list facet) : res (list facet) :=
  match ks with
  | [] => Ok fs
  | k :: rest =>
    let source := (length fs - 1)%nat in
    if Nat.eqb k source then compactify rest (firstn source fs) else
    b <- get fs source ;;
    fs <- set_nth fs k b ;;
    fs <- move_down fs source k [t0 (fnbr b); t1 (fnbr b); t2 (fnbr b)] ;;
    compactify rest (firstn source fs)
  end.

(** ** The hull *)
(** make_facet for the simplex, quickhull.hpp:162-186 *)
Definition simplex_facet (a b c d : nat) (f : nat) (swap : bool) : facet :=
  let '(vs, ns) := match f with
    | O => (T3 b c d, T3 1 2 3)%nat | 1%nat => (T3 a c d, T3 0 2 3)%nat | 2%nat => (T3 a b d, T3 0 1 3)%nat | _ => (T3 a b c, T3 0 1 2)%nat end in
  let flip (t : tri nat) := T3 (t2 t) (t1 t) (t0 t) in
  if eqb swap (Nat.eqb (Nat.modulo (3 - f) 2) 0) then Facet (flip vs) (flip ns) [] [] (RV 0 0 0) 0
  else Facet vs ns [] [] (RV 0 0 0) 0.
(** hypervolume of four points, quickhull.hpp:728-759 *)
Definition hypervolume (eps : R) (a b c d : v3r) : R :=
  lup eps 3 [minus (comps a) (comps d); minus (comps b) (comps d); minus (comps c) (comps d)].
Fixpoint simplex_loop (eps : R) (pts : list v3r) (a b c d : nat) (swap : bool) (fs : list nat) (h : qhull) : res qhull :=
  match fs with
  | [] => Ok h
  | f :: rest =>
    fc <- set_plane eps pts (simplex_facet a b c d f swap) ;;
    h <- rank_facet eps pts (length (facets h)) (QH (facets h ++ [fc]) (removed h) (ranking h) (outside h)) ;;
    simplex_loop eps pts a b c d swap rest h
  end.
(** create_initial_simplex, quickhull.hpp:807-864: lower_dimensional_hull_, which
    is [lower] before, and the hull *)
Definition initial_simplex (eps : R) (pts : list v3r) (a b c d : nat) (lower : bool) (h : qhull) : res (bool * qhull) :=
  pa <- get pts a ;; pb <- get pts b ;; pc <- get pts c ;; pd <- get pts d ;;
  let volume := hypervolume eps pa pb pc pd in
  if Rlt_dec (Rabs volume) eps then Ok (true, h) else
  h <- simplex_loop eps pts a b c d (if Rlt_dec volume 0 then true else false) [0; 1; 2; 3]%nat h ;;
  Ok (lower, QH (facets h) (removed h) (ranking h) []).
(** create_convex_hull, quickhull.hpp:868-900: the facets *)
Definition create_hull (eps : R) (pts : list v3r) (lower : bool) (h : qhull) : res (list facet) :=
  if lower then Ok (facets h) else
  h <- hull_loop eps pts (length pts) h ;; compactify (sort_desc (removed h)) (facets h).
(** the vertices of the facets, each once, quickhull.hpp:1097-1105 *)
Fixpoint unique_vertices (seen : list nat) (l : list nat) : list nat :=
  match l with [] => [] | i :: rest => if mem i seen then unique_vertices seen rest else i :: unique_vertices (i :: seen) rest end.
Definition hull_indices (fs : list facet) : list nat :=
  unique_vertices [] (flat_map (fun f => [t0 (fvert f); t1 (fvert f); t2 (fvert f)]) fs).
(** convex_hull3d, quickhull.hpp:1046-1106, for the tolerance [eps]; [hull] is the
    content of the output before, [lower] is the value that the constructor
    leaves in lower_dimensional_hull_, which it does not set (85-106) *)
Definition quick_hull3d (eps : R) (lower : bool) (pts hull : list v3r) : res (list v3r) :=
  match pts with [] => Ok hull | _ =>
    if Nat.ltb (length pts) 5 then Ok pts else
    '(basis, out) <- affine_basis eps pts (seq 0 (length pts)) ;;
    match basis with
    | [a; b; c; d] =>
      '(lower, h) <- initial_simplex eps pts a b c d lower (QH [] [] [] out) ;;
      fs <- create_hull eps pts lower h ;;
      more <- mapM (get pts) (hull_indices fs) ;; Ok (hull ++ more)
    | _ => mapM (get pts) basis
    end
  end.
Definition convex_hull3d (lower : bool) (pts hull : list v3r) : res (list v3r) := quick_hull3d machine_eps lower pts hull.
