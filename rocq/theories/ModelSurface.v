(** Model of cmmcore::NURBSSurface (cmmcore/nurbs.h:710-1276) and
    surface_point (cmmcore/nurbs_utils.h:447-501). Numbers as in ModelNurbs. *)
From Coq Require Import List ZArith QArith Qcanon Bool.
From Verif Require Import Base ModelVec ModelAabb ModelNurbs.
Import ListNotations.
Open Scope Qc_scope.

(** v[i][j] *)
Definition get2 {A} (l : list (list A)) (i j : Z) : res A := row <- getZ l i ;; getZ row j.

(** temp[l][d] += Nu[k] * P[d] for d = 0..3, nurbs_utils.h:478-480; the loop
    over the four components is one step on vec4 *)
Definition v4axpy (t : vec4) (a : Qc) (P : vec4) : vec4 :=
  V4 (wx t + a * wx P) (wy t + a * wy P) (wz t + a * wz P) (ww t + a * ww P).

(** body of the loop over k, nurbs_utils.h:466-481 (not periodic) *)
Definition surf_inner (p q uspan vspan : nat) (Nu : list Qc) (P : list (list vec4)) (l k : nat) (temp : list vec4)
  : res (list vec4) :=
  nu <- get Nu k ;;
  t <- get temp l ;;
  pt <- get2 P (Z.of_nat uspan - Z.of_nat p + Z.of_nat k) (Z.of_nat vspan - Z.of_nat q + Z.of_nat l) ;;
  set_nth temp l (v4axpy t nu pt).

(** surface_point, nurbs_utils.h:447-501, with both periodic flags false as
    NURBSSurface::evaluate passes them. n and m are the last indices; None is
    -1, which int(size_t(0) - 1) gives: then find_span returns the degree. *)
Definition surf_span (n : option nat) (p : nat) (u : Qc) (U : list Qc) : res nat :=
  match n with None => Ok p | Some n => find_span n p u U end.
Definition surface_point (n : option nat) (p : nat) (U : list Qc) (m : option nat) (q : nat) (V : list Qc)
    (P : list (list vec4)) (u v : Qc) : res vec3 :=
  uspan <- surf_span n p u U ;;
  vspan <- surf_span m q v V ;;
  Nu <- basis_funs uspan u p U zeros ;;
  Nv <- basis_funs vspan v q V zeros ;;
  _ <- get2 P 0 0 ;;
  temp <- for_up (q + 1) 0 (fun l temp => for_up (p + 1) 0 (surf_inner p q uspan vspan Nu P l) temp)
            (repeat v4zero DEG_STACK_SIZE) ;;
  Sw <- for_up (q + 1) 0 (fun l s => nv <- get Nv l ;; t <- get temp l ;; Ok (v4axpy s nv t)) v4zero ;;
  x <- qdiv (wx Sw) (ww Sw) ;; y <- qdiv (wy Sw) (ww Sw) ;; z <- qdiv (wz Sw) (ww Sw) ;;
  Ok (V3 x y z).

(** members, nurbs.h:712, 1093-1101 *)
Record nsurf := NS {
  ns_du : nat; ns_dv : nat;            (* _degree *)
  ns_su : nat; ns_sv : nat;            (* _size *)
  ns_iu : Qc * Qc; ns_iv : Qc * Qc;    (* _interval *)
  ns_cps : list (list vec4);           (* _control_points *)
  ns_ku : list Qc; ns_kv : list Qc;    (* _knots_u, _knots_v *)
  ns_bbox : aabb;                      (* _bbox *)
  ns_aabb : aabb                       (* _aabb *)
}.

(** NURBSSurface(), nurbs.h:714 with the member initialisers *)
Definition ns_default : nsurf :=
  NS 0 0 0 0 (0, 0) (0, 0) [] [] [] (Box (v3all 0) (v3all 0)) aabb_default.

(** update_interval, nurbs.h:1114-1119 *)
Definition range_of (k : list Qc) : res (Qc * Qc) :=
  match k with [] => UB | a :: _ => Ok (a, last k 0) end.
Definition ns_update_interval (s : nsurf) : res nsurf :=
  iu <- range_of (ns_ku s) ;; iv <- range_of (ns_kv s) ;;
  Ok (NS (ns_du s) (ns_dv s) (ns_su s) (ns_sv s) iu iv (ns_cps s) (ns_ku s) (ns_kv s) (ns_bbox s) (ns_aabb s)).

(** NURBSSurface(control_points, degree, knots_u, knots_v), nurbs.h:716-734;
    generate_knots_u/v (794-810) build the same vector as the curve's *)
Definition ns_make (cps : list (list vec4)) (du dv : nat) (ku kv : list Qc) : res nsurf :=
  match cps with
  | [] => Throw EInvalidArgument
  | [] :: _ => Throw EInvalidArgument
  | row :: _ =>
      ku' <- (match ku with [] => gen_knots (length cps) du | _ => Ok ku end) ;;
      kv' <- (match kv with [] => gen_knots (length row) dv | _ => Ok kv end) ;;
      ns_update_interval
        (NS du dv (length cps) (length row) (0, 0) (0, 0) cps ku' kv' (Box (v3all 0) (v3all 0)) aabb_default)
  end.

(** last index as int: size - 1 *)
Definition last_index (size : nat) : option nat := match size with O => None | S n => Some n end.

(** evaluate, nurbs.h:812-815 *)
Definition ns_evaluate (s : nsurf) (u v : Qc) : res vec3 :=
  surface_point (last_index (ns_su s)) (ns_du s) (ns_ku s) (last_index (ns_sv s)) (ns_dv s) (ns_kv s) (ns_cps s) u v.

(** control_points_flat, nurbs.h:960-968: entry i * sv + j is cps[i][j] *)
Definition flat_points (s : nsurf) : res (list vec4) :=
  mapM (fun k => get2 (ns_cps s) (Z.of_nat (k / ns_sv s)) (Z.of_nat (k mod ns_sv s))) (seq 0 (ns_su s * ns_sv s)).

(** flipControlPointsU, nurbs.h:35-49 *)
Definition flip (cpts : list (list vec4)) : res (list (list vec4)) :=
  row <- get cpts 0 ;;
  mapM (fun i => mapM (fun r => get r i) cpts) (seq 0 (length row)).

(** insert_knot in direction 0, nurbs.h:843-867; the interval is not updated *)
Definition ns_insert_u (s : nsurf) (t : Qc) (count : nat) : res nsurf :=
  let m := find_multiplicity t (ns_ku s) in
  span <- surf_span (last_index (length (ns_cps s))) (ns_du s) t (ns_ku s) ;;
  kv <- knot_insertion_kv (ns_ku s) t span count ;;
  cpts <- flat_points s ;;
  cols <- mapM (fun v =>
    ccu <- mapM (fun u => get cpts (u * ns_sv s + v)) (seq 0 (ns_su s)) ;;
    knot_insertion (ns_du s) (ns_ku s) ccu t count m span []) (seq 0 (ns_sv s)) ;;
  new <- flip cols ;;
  Ok (NS (ns_du s) (ns_dv s) (ns_su s + count) (ns_sv s) (ns_iu s) (ns_iv s) new kv (ns_kv s) (ns_bbox s) (ns_aabb s)).

(** insert_knot_v, nurbs.h:877-895 *)
Definition ns_insert_v (s : nsurf) (t : Qc) (count : nat) : res nsurf :=
  row0 <- get (ns_cps s) 0 ;;
  let new_count_v := (length row0 + count)%nat in
  span <- surf_span (last_index (ns_sv s)) (ns_dv s) t (ns_kv s) ;;
  kv <- knot_insertion_kv (ns_kv s) t span count ;;
  let m := find_multiplicity t (ns_kv s) in
  new <- mapM (fun row => knot_insertion (ns_dv s) (ns_kv s) row t count m span (repeat v4zero new_count_v)) (ns_cps s) ;;
  ns_update_interval
    (NS (ns_du s) (ns_dv s) (ns_su s) new_count_v (ns_iu s) (ns_iv s) new (ns_ku s) kv (ns_bbox s) (ns_aabb s)).

(** the literal 1e-7 *)
Definition lit_1em7 : Qc := Q2Qc (944473296573929 # 9444732965739290427392).

(** the test at the head of split_surface_u / v, nurbs.h:898-901, 930-933 *)
Definition at_edge (param : Qc) (iv : Qc * Qc) (tol : Qc) : bool :=
  (param <=? fst iv) || (snd iv <=? param) || (Qcabs (param - fst iv) <=? tol) || (Qcabs (param - snd iv) <=? tol).

(** split_surface_u, nurbs.h:897-927 *)
Definition ns_split_u (s : nsurf) (param tol : Qc) : res (nsurf * nsurf) :=
  if at_edge param (ns_iu s) tol then Throw EInvalidArgument else
  let p := ns_du s in
  sp <- surf_span (last_index (ns_su s)) p param (ns_ku s) ;;
  let ks := (Z.of_nat sp - Z.of_nat p + 1)%Z in
  let m := find_multiplicity param (ns_ku s) in
  if Nat.ltb p m then UB else
  let r := (p - m)%nat in
  temp <- ns_insert_u s param r ;;
  sp2 <- surf_span (last_index (ns_su temp)) p param (ns_ku temp) ;;
  let knot_span := (sp2 + 1)%nat in
  kv1 <- sub_vec (ns_ku temp) 0 (Z.of_nat knot_span) ;;
  kv2 <- sub_vec (ns_ku temp) (Z.of_nat knot_span) (Z.of_nat (length (ns_ku temp))) ;;
  let kv1 := kv1 ++ [param] in
  let kv2 := repeat param (p + 1) ++ kv2 in
  cp1 <- sub_vec (ns_cps temp) 0 (ks + Z.of_nat r) ;;
  cp2 <- sub_vec (ns_cps temp) (ks + Z.of_nat r - 1) (Z.of_nat (length (ns_cps temp))) ;;
  s1 <- ns_make cp1 p (ns_dv s) kv1 (ns_kv s) ;;
  s2 <- ns_make cp2 p (ns_dv s) kv2 (ns_kv s) ;;
  Ok (s1, s2).

(** split_surface_v, nurbs.h:929-958 *)
Definition ns_split_v (s : nsurf) (param tol : Qc) : res (nsurf * nsurf) :=
  if at_edge param (ns_iv s) tol then Throw EInvalidArgument else
  let p := ns_dv s in
  sp <- surf_span (last_index (ns_sv s)) p param (ns_kv s) ;;
  let ks := (Z.of_nat sp - Z.of_nat p + 1)%Z in
  let m := find_multiplicity param (ns_kv s) in
  if Nat.ltb p m then UB else
  let r := (p - m)%nat in
  temp <- ns_insert_v s param r ;;
  sp2 <- surf_span (last_index (ns_sv temp)) p param (ns_kv temp) ;;
  let knot_span := (sp2 + 1)%nat in
  kv1 <- sub_vec (ns_kv temp) 0 (Z.of_nat knot_span) ;;
  kv2 <- sub_vec (ns_kv temp) (Z.of_nat knot_span) (Z.of_nat (length (ns_kv temp))) ;;
  let kv1 := kv1 ++ [param] in
  let kv2 := repeat param (p + 1) ++ kv2 in
  cp1 <- mapM (fun i => row <- get (ns_cps temp) i ;; sub_vec row 0 (ks + Z.of_nat r)) (seq 0 (ns_su s)) ;;
  cp2 <- mapM (fun i => row <- get (ns_cps temp) i ;;
                        sub_vec row (ks + Z.of_nat r - 1) (Z.of_nat (length row))) (seq 0 (ns_su s)) ;;
  s1 <- ns_make cp1 (ns_du s) p (ns_ku s) kv1 ;;
  s2 <- ns_make cp2 (ns_du s) p (ns_ku s) kv2 ;;
  Ok (s1, s2).

(** subdivide(umid, vmid), nurbs.h:1027-1041, and subdivide(), 1009-1025;
    results in the order s11, s12, s21, s22 *)
Definition ns_subdivide_at (s : nsurf) (umid vmid : Qc) : res (nsurf * nsurf * nsurf * nsurf) :=
  '(s1, s2) <- ns_split_u s umid lit_1em7 ;;
  '(s11, s12) <- ns_split_v s1 vmid lit_1em7 ;;
  '(s21, s22) <- ns_split_v s2 vmid lit_1em7 ;;
  Ok (s11, s12, s21, s22).
Definition ns_subdivide (s : nsurf) : res (nsurf * nsurf * nsurf * nsurf) :=
  ns_subdivide_at s (qc 1 2 * (snd (ns_iu s) + fst (ns_iu s))) (qc 1 2 * (snd (ns_iv s) + fst (ns_iv s))).

(** bbox, nurbs.h:1078-1091: the box returned *)
Definition ns_bbox_of (s : nsurf) : res aabb :=
  p <- get2 (ns_cps s) 0 0 ;;
  p0 <- to_vec3 p ;;
  pts <- mapM (fun i => mapM (fun j => q <- get2 (ns_cps s) (Z.of_nat i) (Z.of_nat j) ;; to_vec3 q) (seq 0 (ns_sv s)))
           (seq 0 (ns_su s)) ;;
  Ok (fold_left aabb_expand (concat pts) (Box p0 p0)).

(** get_derivative, nurbs.h:1121-1170, into a default-constructed result. The
    sizes, intervals and boxes of the result keep their defaults. direction is
    0 or 1; anything else throws. *)
Definition ns_get_derivative (s : nsurf) (direction : Z) : res nsurf :=
  if negb ((direction =? 0) || (direction =? 1))%Z then Throw EInvalidArgument else
  let d := if (direction =? 0)%Z then ns_du s else ns_dv s in
  let k := if (direction =? 0)%Z then ns_ku s else ns_kv s in
  nk <- sub_vec k 1 (Z.of_nat (length k) - 1) ;;
  let diff (a b : res vec4) (i : nat) : res vec4 :=
    x <- get k (i + d + 1) ;; y <- get k (i + 1) ;; f <- qdiv (Qc_of_nat d) (x - y) ;;
    p1 <- a ;; p0 <- b ;;
    Ok (v4scale (V4 (wx p1 - wx p0) (wy p1 - wy p0) (wz p1 - wz p0) (ww p1 - ww p0)) f) in
  if (direction =? 0)%Z then
    cps <- mapM (fun i => mapM (fun j =>
             diff (get2 (ns_cps s) (Z.of_nat i + 1) (Z.of_nat j)) (get2 (ns_cps s) (Z.of_nat i) (Z.of_nat j)) i)
             (seq 0 (ns_sv s))) (seq 0 (ns_su s - 1)) ;;
    Ok (NS (d - 1) (ns_dv s) 0 0 (0, 0) (0, 0) cps nk (ns_kv s) (Box (v3all 0) (v3all 0)) aabb_default)
  else
    cps <- mapM (fun i => mapM (fun j =>
             diff (get2 (ns_cps s) (Z.of_nat i) (Z.of_nat j + 1)) (get2 (ns_cps s) (Z.of_nat i) (Z.of_nat j)) j)
             (seq 0 (ns_sv s - 1))) (seq 0 (ns_su s)) ;;
    Ok (NS (ns_du s) (d - 1) 0 0 (0, 0) (0, 0) cps (ns_ku s) nk (Box (v3all 0) (v3all 0)) aabb_default).

(** NURBSCurve(cpt_size, degree), nurbs.h:60-70 *)
Definition nc_make_size (size degree : nat) : res ncurve :=
  c <- generate_knots (NC (repeat v4zero size) degree [] false [] (0, 1) aabb_default) ;;
  update_interval c.

(** point += P[...] * basis[j] over j = 0..degree, nurbs.h:1214-1218, 1248-1252 *)
Definition iso_point (pts : nat -> res vec4) (degree : nat) (basis : list Qc) : res vec4 :=
  for_up (degree + 1) 0 (fun j acc => p <- pts j ;; b <- get basis j ;; Ok (v4add acc (v4scale p b))) v4zero.

(** extract_isocurve, nurbs.h:1182-1257; [dir_u] is direction == U. The curve's
    box is not built. *)
Definition ns_isocurve (s : nsurf) (param : Qc) (dir_u : bool) : res ncurve :=
  let iv := if dir_u then ns_iu s else ns_iv s in
  if (param <? fst iv) || (snd iv <? param) then Throw EInvalidArgument else
  let deg := if dir_u then ns_du s else ns_dv s in
  let k := if dir_u then ns_ku s else ns_kv s in
  span <- surf_span (last_index (if dir_u then ns_su s else ns_sv s)) deg param k ;;
  basis <- basis_funs span param deg k zeros ;;
  let m := if dir_u then ns_sv s else ns_su s in
  crv <- nc_make_size m (if dir_u then ns_dv s else ns_du s) ;;
  let crv := nc_set_knots crv (if dir_u then ns_kv s else ns_ku s) in
  crv <- update_interval crv ;;
  cps <- mapM (fun i => iso_point (fun j =>
           let idx := (Z.of_nat span - Z.of_nat deg + Z.of_nat j)%Z in
           if dir_u then get2 (ns_cps s) idx (Z.of_nat i) else get2 (ns_cps s) (Z.of_nat i) idx) deg basis) (seq 0 m) ;;
  let crv := nc_set_cps crv cps in
  if dir_u then update_interval crv else Ok crv.

(** extract_surface_boundaries, nurbs.h:1265-1276 *)
Definition ns_boundaries (s : nsurf) : res (list ncurve) :=
  a <- ns_isocurve s (fst (ns_iu s)) true ;;
  b <- ns_isocurve s (snd (ns_iu s)) true ;;
  c <- ns_isocurve s (fst (ns_iv s)) false ;;
  d <- ns_isocurve s (snd (ns_iv s)) false ;;
  Ok [a; b; c; d].

(** the free function extract_isocurve, boundary_intersection.h:22-101. In the
    U direction the knots are copied one by one over the generated ones (45-47);
    in the V direction the generated knots stay. *)
Definition free_isocurve (s : nsurf) (param : Qc) (dir_u : bool) : res ncurve :=
  let iv := if dir_u then ns_iu s else ns_iv s in
  if (param <? fst iv) || (snd iv <? param) then Throw EInvalidArgument else
  let deg := if dir_u then ns_du s else ns_dv s in
  let k := if dir_u then ns_ku s else ns_kv s in
  span <- surf_span (last_index (if dir_u then ns_su s else ns_sv s)) deg param k ;;
  basis <- basis_funs span param deg k zeros ;;
  let m := if dir_u then ns_sv s else ns_su s in
  crv <- nc_make_size m (if dir_u then ns_dv s else ns_du s) ;;
  crv <- (if dir_u then
            ks <- copy_range (ns_kv s) 0 (Z.of_nat (length (ns_kv s))) (nc_knots crv) 0 ;;
            update_interval (nc_set_knots crv ks)
          else Ok crv) ;;
  cps <- mapM (fun i => iso_point (fun j =>
           let idx := (Z.of_nat span - Z.of_nat deg + Z.of_nat j)%Z in
           if dir_u then get2 (ns_cps s) idx (Z.of_nat i) else get2 (ns_cps s) (Z.of_nat i) idx) deg basis) (seq 0 m) ;;
  let crv := nc_set_cps crv cps in
  if dir_u then update_interval crv else Ok crv.
