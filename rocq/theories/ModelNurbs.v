(** Model of the curve part of cmmcore/nurbs_utils.h and cmmcore/nurbs.h.

    Numbers are exact rationals. int values that are counts, degrees or indices
    are nat where the code keeps them non-negative; index expressions that could
    become negative are computed in Z. A division by zero, which on doubles
    gives an infinity or NaN that exact numbers cannot represent, is modelled by
    the outcome UB: theorems show that it does not happen. *)
From Coq Require Import List ZArith QArith Qcanon Bool.
From Verif Require Import Base ModelVec ModelAabb.
Import ListNotations.
Open Scope Qc_scope.

(** a / b *)
Definition qdiv (a b : Qc) : res Qc := if b =? 0 then UB else Ok (a / b).

(** CMMCORE_DEG_STACK_SIZE, nurbs_utils.h:28-35 *)
Definition DEG_STACK_SIZE : nat := 9.

(** std::array<double, CMMCORE_DEG_STACK_SIZE> a{} *)
Definition zeros : list Qc := repeat 0 DEG_STACK_SIZE.

(** the literals 1e-12 and 1e-8 as doubles *)
Definition lit_1em12 : Qc := Q2Qc (4951760157141521 # 4951760157141521099596496896).
Definition lit_1em8 : Qc := Q2Qc (3022314549036573 # 302231454903657293676544).

(** the while loop of find_span, nurbs_utils.h:68-71 *)
Fixpoint span_loop (fuel : nat) (n span : nat) (u : Qc) (U : list Qc) : res nat :=
  if Nat.ltb span (n + 1) then
    x <- get U span ;;
    if x <=? u then
      match fuel with O => UB | S f => span_loop f n (S span) u U end
    else Ok span
  else Ok span.

(** find_span, nurbs_utils.h:63-76; is_periodic is unused there. The fuel
    suffices: the loop runs at most n + 1 times. *)
Definition find_span (n degree : nat) (u : Qc) (U : list Qc) : res nat :=
  s <- span_loop (S n) n (degree + 1) u U ;; Ok (s - 1)%nat.

(** the inner loop of basis_funs, nurbs_utils.h:102-106 *)
Definition basis_inner (j : nat) (lft rgt : list Qc) (r : nat) (st : list Qc * Qc) : res (list Qc * Qc) :=
  let '(N, saved) := st in
  nr <- get N r ;;
  rr <- get rgt (r + 1) ;;
  lj <- get lft (j - r) ;;
  temp <- qdiv nr (rr + lj) ;;
  N <- set_nth N r (saved + rr * temp) ;;
  Ok (N, lj * temp).

(** the body of the outer loop, nurbs_utils.h:97-108 *)
Definition basis_outer (i : nat) (u : Qc) (U : list Qc) (j : nat) (st : list Qc * list Qc * list Qc)
  : res (list Qc * list Qc * list Qc) :=
  let '(N, lft, rgt) := st in
  a <- getZ U (Z.of_nat i + 1 - Z.of_nat j) ;;
  lft <- set_nth lft j (u - a) ;;
  b <- get U (i + j) ;;
  rgt <- set_nth rgt j (b - u) ;;
  '(N, saved) <- for_up j 0 (basis_inner j lft rgt) (N, 0) ;;
  N <- set_nth N j saved ;;
  Ok (N, lft, rgt).

(** basis_funs, nurbs_utils.h:87-109: the array N after the call *)
Definition basis_funs (i : nat) (u : Qc) (p : nat) (U : list Qc) (N : list Qc) : res (list Qc) :=
  N <- set_nth N 0 1 ;;
  '(N, _, _) <- for_up p 1 (basis_outer i u U) (N, zeros, zeros) ;;
  Ok N.

(** the loop of curve_point, nurbs_utils.h:134-141; state: sum_of_weights, x, y, z *)
Definition curve_point_step (p span : nat) (P : list vec4) (N : list Qc) (i : nat) (st : Qc * Qc * Qc * Qc)
  : res (Qc * Qc * Qc * Qc) :=
  let '(sw, x, y, z) := st in
  pt <- getZ P (Z.of_nat span - Z.of_nat p + Z.of_nat i) ;;
  ni <- get N i ;;
  let b := ni * ww pt in
  Ok (sw + b, x + b * wx pt, y + b * wy pt, z + b * wz pt).

(** curve_point, nurbs_utils.h:122-147 *)
Definition curve_point (n p : nat) (U : list Qc) (P : list vec4) (u : Qc) : res vec3 :=
  span <- find_span n p u U ;;
  N <- basis_funs span u p U zeros ;;
  '(sw, x, y, z) <- for_up (p + 1) 0 (curve_point_step p span P N) (0, 0, 0, 0) ;;
  x <- qdiv x sw ;; y <- qdiv y sw ;; z <- qdiv z sw ;;
  Ok (V3 x y z).

(** find_multiplicity, nurbs_utils.h:584-593 *)
Definition find_multiplicity (knot : Qc) (knots : list Qc) : nat :=
  fold_left (fun m kv => if Qcabs (knot - kv) <=? lit_1em12 then S m else m) knots 0%nat.

(** ** Knot insertion *)

(** vec4 arithmetic: operator*(double) and operator+ (vec.h:887-903) *)
Definition v4scale (a : vec4) (k : Qc) : vec4 := V4 (wx a * k) (wy a * k) (wz a * k) (ww a * k).
Definition v4add (a b : vec4) : vec4 := V4 (wx a + wx b) (wy a + wy b) (wz a + wz b) (ww a + ww b).
(** operator-(vec4(double)), vec.h:697, 884-886 *)
Definition v4sub_scalar (a : vec4) (k : Qc) : vec4 := V4 (wx a - k) (wy a - k) (wz a - k) (ww a - k).
Definition v4zero : vec4 := V4 0 0 0 0.

(** std::copy(src + from, src + from + len, dst + at): out of range is UB *)
Definition copy_range {A} (src : list A) (from len : Z) (dst : list A) (at_ : Z) : res (list A) :=
  if ((0 <=? from) && (0 <=? len) && (0 <=? at_) && (from + len <=? Z.of_nat (length src))
      && (at_ + len <=? Z.of_nat (length dst)))%Z
  then Ok (firstn (Z.to_nat at_) dst ++ firstn (Z.to_nat len) (skipn (Z.to_nat from) src)
           ++ skipn (Z.to_nat (at_ + len)) dst)
  else UB.

(** vector::resize *)
Definition resize (l : list vec4) (n : nat) : list vec4 := firstn n (l ++ repeat v4zero (n - length l)).

(** knot_insertion_alpha, nurbs_utils.h:605-608 *)
Definition knot_insertion_alpha (u : Qc) (knots : list Qc) (span idx leg : Z) : res Qc :=
  a <- getZ knots (leg + idx) ;;
  b <- getZ knots (idx + span + 1) ;;
  qdiv (u - a) (b - a).

(** body of the inner loop, nurbs_utils.h:680-683 *)
Definition insertion_inner (u : Qc) (knots : list Qc) (span L : Z) (i : nat) (temp : list vec4) : res (list vec4) :=
  alpha <- knot_insertion_alpha u knots span (Z.of_nat i) L ;;
  t1 <- get temp (i + 1) ;;
  t0 <- get temp i ;;
  set_nth temp i (v4add (v4scale t1 alpha) (v4scale t0 (1 - alpha))).

(** body of the outer loop, nurbs_utils.h:678-686. [degree - j - s] is computed
    in size_t: when negative it wraps to a huge bound and the loop overruns. *)
Definition insertion_outer (degree : nat) (knots : list Qc) (u : Qc) (num s span : nat) (j : nat)
    (st : list vec4 * list vec4) : res (list vec4 * list vec4) :=
  let '(temp, new) := st in
  let L := (Z.of_nat span - Z.of_nat degree + Z.of_nat j)%Z in
  if Nat.ltb degree (j + s) then UB else
  temp <- for_up (degree - j - s + 1) 0 (insertion_inner u knots (Z.of_nat span) L) temp ;;
  t0 <- get temp 0 ;;
  new <- set_nthZ new L t0 ;;
  t1 <- get temp (degree - j - s) ;;
  new <- set_nthZ new (Z.of_nat span + Z.of_nat num - Z.of_nat j - Z.of_nat s) t1 ;;
  Ok (temp, new).

(** knot_insertion, nurbs_utils.h:655-692: ctrlpts_new after the call. temp has
    CMMCORE_DEG_STACK_SIZE elements (l. 673). *)
Definition knot_insertion (degree : nat) (knots : list Qc) (ctrlpts : list vec4) (u : Qc) (num s span : nat)
    (new : list vec4) : res (list vec4) :=
  let zs := Z.of_nat span in let zd := Z.of_nat degree in let zm := Z.of_nat s in let zr := Z.of_nat num in
  let np := Z.of_nat (length ctrlpts) in
  let new := resize new (length ctrlpts + num) in
  new <- copy_range ctrlpts 0 (zs - zd + 1) new 0 ;;
  new <- copy_range ctrlpts (zs - zm) (np - (zs - zm)) new (zs - zm + zr) ;;
  temp <- copy_range ctrlpts (zs - zd) (zd - zm + 1) (repeat v4zero DEG_STACK_SIZE) 0 ;;
  '(temp, new) <- for_up num 1 (insertion_outer degree knots u num s span) (temp, new) ;;
  let L := (zs - zd + zr)%Z in
  for_up (Z.to_nat (zs - zm - (L + 1))) 0 (fun i new =>
    t <- getZ temp (1 + Z.of_nat i) ;;
    set_nthZ new (L + 1 + Z.of_nat i) t) new.

(** knot_insertion_kv, nurbs_utils.h:714-725 *)
Definition vec_insert {A} (l : list A) (pos : nat) (x : A) : res (list A) :=
  if Nat.leb pos (length l) then Ok (firstn pos l ++ x :: skipn pos l) else UB.
Definition knot_insertion_kv (knots : list Qc) (u : Qc) (span r : nat) : res (list Qc) :=
  for_up r 0 (fun _ kv => vec_insert kv (span + 1) u) knots.

(** ** NURBSCurve *)

(** members, nurbs.h:519-526 (degree is a non-negative int) *)
Record ncurve := NC {
  nc_cps : list vec4;
  nc_degree : nat;
  nc_knots : list Qc;
  nc_periodic : bool;
  nc_hull : list vec3;
  nc_interval : Qc * Qc;
  nc_aabb : aabb
}.

(** NURBSCurve(), nurbs.h:54 with the member initialisers *)
Definition nc_default : ncurve := NC [] 0 [] false [] (0, 1) aabb_default.

Definition nc_set_knots (c : ncurve) (k : list Qc) : ncurve :=
  NC (nc_cps c) (nc_degree c) k (nc_periodic c) (nc_hull c) (nc_interval c) (nc_aabb c).
Definition nc_set_cps (c : ncurve) (l : list vec4) : ncurve :=
  NC l (nc_degree c) (nc_knots c) (nc_periodic c) (nc_hull c) (nc_interval c) (nc_aabb c).
Definition nc_set_interval (c : ncurve) (i : Qc * Qc) : ncurve :=
  NC (nc_cps c) (nc_degree c) (nc_knots c) (nc_periodic c) (nc_hull c) i (nc_aabb c).
Definition nc_set_aabb (c : ncurve) (b : aabb) : ncurve :=
  NC (nc_cps c) (nc_degree c) (nc_knots c) (nc_periodic c) (nc_hull c) (nc_interval c) b.
Definition nc_set_periodic (c : ncurve) (b : bool) : ncurve :=
  NC (nc_cps c) (nc_degree c) (nc_knots c) b (nc_hull c) (nc_interval c) (nc_aabb c).

(** std::min_element / max_element, dereferenced *)
Definition min_of (l : list Qc) : res Qc := match l with [] => UB | a :: t => Ok (fold_left Qcmin t a) end.
Definition max_of (l : list Qc) : res Qc := match l with [] => UB | a :: t => Ok (fold_left Qcmax t a) end.

(** update_interval, nurbs.h:175-178 *)
Definition update_interval (c : ncurve) : res ncurve :=
  a <- min_of (nc_knots c) ;; b <- max_of (nc_knots c) ;; Ok (nc_set_interval c (a, b)).

(** vec4::to_vec3, vec.h:710-714 *)
Definition to_vec3 (v : vec4) : res vec3 :=
  x <- qdiv (wx v) (ww v) ;; y <- qdiv (wy v) (ww v) ;; z <- qdiv (wz v) (ww v) ;; Ok (V3 x y z).

(** rebuildAABB, nurbs.h:528-534 *)
Definition rebuildAABB (c : ncurve) : res ncurve :=
  match nc_cps c with
  | [] => UB
  | p :: _ =>
      p0 <- to_vec3 p ;;
      pts <- mapM to_vec3 (nc_cps c) ;;
      Ok (nc_set_aabb c (fold_left aabb_expand pts (Box p0 p0)))
  end.

(** normalize_knots, nurbs.h:186-195 *)
Definition normalize_knots (c : ncurve) : res ncurve :=
  start <- min_of (nc_knots c) ;;
  end_ <- max_of (nc_knots c) ;;
  d <- qdiv 1 (end_ - start) ;;
  update_interval (nc_set_knots c (map (fun k => (k - start) * d) (nc_knots c))).

(** generate_knots, nurbs.h:198-208: with fewer than degree points the iota
    range is inverted (UB). *)
Definition gen_knots (n degree : nat) : res (list Qc) :=
  if Nat.ltb n degree then UB
  else Ok (repeat 0 (degree + 1) ++ map Qc_of_nat (seq 1 (n - degree)) ++ repeat (Qc_of_nat (n - degree)) degree).
Definition generate_knots (c : ncurve) : res ncurve :=
  k <- gen_knots (length (nc_cps c)) (nc_degree c) ;; update_interval (nc_set_knots c k).

(** generate_knots_periodic, nurbs.h:232-240 *)
Definition gen_knots_periodic (n degree : nat) : list Qc :=
  map (fun i => Qc_of_Z (Z.of_nat i - Z.of_nat degree)) (seq 0 (n + degree + 1)).
Definition generate_knots_periodic (c : ncurve) : res ncurve :=
  update_interval (nc_set_knots c (gen_knots_periodic (length (nc_cps c)) (nc_degree c))).

(** comparison of all four components, nurbs.h:165-167 *)
Definition v4eqb (a b : vec4) : bool :=
  (wx a =? wx b) && (wy a =? wy b) && (wz a =? wz b) && (ww a =? ww b).

(** is_periodic, nurbs.h:163-172 *)
Fixpoint wrap_from (cps : list vec4) (degree j fuel : nat) : res bool :=
  match fuel with
  | O => Ok true
  | S f =>
      a <- get cps j ;;
      b <- getZ cps (Z.of_nat (length cps) - Z.of_nat degree + Z.of_nat j) ;;
      if v4eqb a b then wrap_from cps degree (S j) f else Ok false
  end.
Definition nc_is_periodic (c : ncurve) : res bool := wrap_from (nc_cps c) (nc_degree c) 0 (nc_degree c).

(** make_periodic, nurbs.h:211-229 *)
Definition make_periodic (c : ncurve) : res ncurve :=
  p <- nc_is_periodic c ;;
  if (p : bool) then Ok c else
  if Nat.ltb (length (nc_cps c)) (nc_degree c) then UB else
  c <- generate_knots_periodic (nc_set_cps c (nc_cps c ++ firstn (nc_degree c) (nc_cps c))) ;;
  Ok (nc_set_periodic c true).

(** NURBSCurve(control_points, degree, periodic), nurbs.h:106-118 *)
Definition nc_make (cps : list vec4) (degree : nat) (periodic : bool) : res ncurve :=
  let c := NC cps degree [] periodic [] (0, 1) aabb_default in
  c <- (if periodic then generate_knots_periodic c else generate_knots c) ;;
  c <- (if periodic then make_periodic c else Ok c) ;;
  rebuildAABB c.

(** vec4::set(vec3), vec.h:743-748 *)
Definition v4of3 (v : vec3) : vec4 := V4 (vx v) (vy v) (vz v) 1.

(** NURBSCurve(vec3 points, degree, periodic), nurbs.h:85-104 *)
Definition nc_make3 (pts : list vec3) (degree : nat) (periodic : bool) : res ncurve :=
  nc_make (map v4of3 pts) degree periodic.

(** NURBSCurve(control_points, degree, knots, periodic), nurbs.h:120-125 *)
Definition nc_make_knots (cps : list vec4) (degree : nat) (knots : list Qc) (periodic : bool) : res ncurve :=
  c <- update_interval (NC cps degree knots periodic [] (0, 1) aabb_default) ;; rebuildAABB c.

(** copy constructor, nurbs.h:128-136, and operator=, nurbs.h:149-158 *)
Definition nc_copy (other : ncurve) : ncurve :=
  NC (nc_cps other) (nc_degree other) (nc_knots other) (nc_periodic other) (nc_hull other) (nc_interval other) (nc_aabb other).

(** move constructor, nurbs.h:138-147: _periodic keeps its initialiser *)
Definition nc_move (other : ncurve) : ncurve :=
  NC (nc_cps other) (nc_degree other) (nc_knots other) false (nc_hull other) (nc_interval other) (nc_aabb other).

(** evaluate, nurbs.h:319-325; an empty curve gives n = -1 and reads
    control_points out of range *)
Definition evaluate (c : ncurve) (t : Qc) : res vec3 :=
  match length (nc_cps c) with
  | O => UB
  | S n => curve_point n (nc_degree c) (nc_knots c) (nc_cps c) t
  end.

(** insert_knot, nurbs.h:243-265. The fill loop (258-260) writes indices
    0..count before knot_insertion overwrites the array. *)
Definition insert_knot (c : ncurve) (t : Qc) (count : nat) : res ncurve :=
  match length (nc_cps c) with
  | O => UB
  | S n1 =>
      let n := S n1 in
      let cpts := nc_cps c in
      span <- find_span (n - 1) (nc_degree c) t (nc_knots c) ;;
      k_v <- knot_insertion_kv (nc_knots c) t span count ;;
      let s_u := find_multiplicity t (nc_knots c) in
      let cp := resize cpts (n + count) in
      cp <- for_up (count + 1) 0 (fun i cp => set_nth cp i (v4sub_scalar (last cpts v4zero) (Qc_of_nat i))) cp ;;
      cp <- knot_insertion (nc_degree c) (nc_knots c) cpts t count s_u span cp ;;
      update_interval (nc_set_knots (nc_set_cps c cp) k_v)
  end.

(** set_control_points, nurbs.h:481-492. The box is not rebuilt. *)
Definition nc_set_control_points (c : ncurve) (cpts : list vec4) : res ncurve :=
  let change_size := negb (Nat.eqb (length cpts) (length (nc_cps c))) in
  let c := nc_set_cps c cpts in
  if change_size then
    if nc_periodic c then generate_knots_periodic c else generate_knots c
  else Ok c.

(** set_degree, nurbs.h:497-500 *)
Definition nc_set_degree (c : ncurve) (val : nat) : res ncurve :=
  update_interval (NC (nc_cps c) val (nc_knots c) (nc_periodic c) (nc_hull c) (nc_interval c) (nc_aabb c)).

(** set_knots, nurbs.h:506-509 *)
Definition nc_set_knots_checked (c : ncurve) (k : list Qc) : res ncurve := update_interval (nc_set_knots c k).

(** a sub-range [from, to) of a vector used to construct another *)
Definition sub_vec {A} (l : list A) (from to_ : Z) : res (list A) :=
  if ((0 <=? from) && (from <=? to_) && (to_ <=? Z.of_nat (length l)))%Z
  then Ok (firstn (Z.to_nat (to_ - from)) (skipn (Z.to_nat from) l)) else UB.

(** split, nurbs.h:268-316. The knot multiplicity s above the degree makes
    [r] negative; insert_knot then loops over a huge size_t range: UB. *)
Definition nc_split (c : ncurve) (param : Qc) (normalize : bool) : res (ncurve * ncurve) :=
  let '(i0, i1) := nc_interval c in
  if (param <=? i0) || (i1 <=? param) ||
     (Qcabs (param - i0) <=? lit_1em12) || (Qcabs (param - i1) <=? lit_1em12) then Throw EInvalidArgument else
  let n := length (nc_cps c) in
  let p := nc_degree c in
  sp <- find_span n p param (nc_knots c) ;;
  let ks := (Z.of_nat sp - Z.of_nat p + 1)%Z in
  let s := find_multiplicity param (nc_knots c) in
  if Nat.ltb p s then UB else
  let r := (p - s)%nat in
  temp <- nc_make_knots (nc_cps c) p (nc_knots c) (nc_periodic c) ;;
  temp <- update_interval temp ;;
  temp <- insert_knot temp param r ;;
  sp2 <- find_span (length (nc_cps temp)) p param (nc_knots temp) ;;
  let knot_span := (sp2 + 1)%nat in
  kv1 <- sub_vec (nc_knots temp) 0 (Z.of_nat knot_span) ;;
  kv2 <- sub_vec (nc_knots temp) (Z.of_nat knot_span) (Z.of_nat (length (nc_knots temp))) ;;
  let kv1 := kv1 ++ [param] in
  let kv2 := repeat param (p + 1) ++ kv2 in
  cp1 <- sub_vec (nc_cps temp) 0 (ks + Z.of_nat r) ;;
  cp2 <- sub_vec (nc_cps temp) (ks + Z.of_nat r - 1) (Z.of_nat (length (nc_cps temp))) ;;
  c1 <- nc_make_knots cp1 p kv1 false ;;
  c2 <- nc_make_knots cp2 p kv2 false ;;
  if normalize then
    c1 <- normalize_knots c1 ;; c2 <- normalize_knots c2 ;; Ok (c1, c2)
  else Ok (c1, c2).

(** ** Knot lists *)

(** getKnotMultiplicities, nurbs_utils.h:1050-1070: pairs (knot, count) *)
Fixpoint mult_loop (last_knot : Qc) (count : nat) (rest : list Qc) : list (Qc * nat) :=
  match rest with
  | [] => [(last_knot, count)]
  | k :: t =>
      if Qcabs (k - last_knot) <? lit_1em8 then mult_loop last_knot (S count) t
      else (last_knot, count) :: mult_loop k 1 t
  end.
Definition getKnotMultiplicities (knots : list Qc) : list (Qc * nat) :=
  match knots with [] => [] | k :: t => mult_loop k 1 t end.

(** uniqueKnots, nurbs_utils.h:1074-1082 (with contains, 32-34): what is
    appended to the output; the set is a list *)
Fixpoint unique_loop (seen : list Qc) (knots : list Qc) : list Qc :=
  match knots with
  | [] => []
  | k :: t => if existsb (Qceqb k) seen then unique_loop seen t else k :: unique_loop (k :: seen) t
  end.
Definition uniqueKnots (knots : list Qc) : list Qc := unique_loop [] knots.

(** the loop of decompose, nurbs.h:558-569: pieces pushed, and the final temp *)
Fixpoint decompose_loop (temp : ncurve) (ks : list Qc) : res (list ncurve) :=
  match ks with
  | [] => Ok [temp]
  | k :: t =>
      '(a, b) <- nc_split temp k false ;;
      rest <- decompose_loop (nc_copy b) t ;;
      Ok (a :: rest)
  end.

(** decompose, nurbs.h:542-573. With no knots, unique_knots.size() - 1 wraps. *)
Definition decompose (c : ncurve) : res (list ncurve) :=
  temp <- update_interval (nc_copy c) ;;
  match uniqueKnots (nc_knots temp) with
  | [] => UB
  | [_] => Ok [temp]
  | _ :: rest => decompose_loop temp (removelast rest)
  end.
