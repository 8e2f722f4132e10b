(** Model of splitting a curve (nurbs.h) with a rounding after every operation on
    doubles, as in ModelRound. *)
From Coq Require Import List ZArith QArith Qcanon Bool.
From Verif Require Import Base ModelVec ModelAabb ModelNurbs ModelRound ModelRoundInsert.
Import ListNotations.
Open Scope Qc_scope.

Section Rounded.
Variable fl : nat -> Qc -> option Qc.
Notation rnd := (rnd fl).

(** vec4::to_vec3, vec.h:710-714 *)
Definition fto_vec3 (v : vec4) : res vec3 :=
  x <- fdiv fl (wx v) (ww v) ;; y <- fdiv fl (wy v) (ww v) ;; z <- fdiv fl (wz v) (ww v) ;; Ok (V3 x y z).

(** rebuildAABB, nurbs.h:528-534 *)
Definition frebuildAABB (c : ncurve) : res ncurve :=
  match nc_cps c with
  | [] => UB
  | p :: _ =>
      p0 <- fto_vec3 p ;;
      pts <- mapM fto_vec3 (nc_cps c) ;;
      Ok (nc_set_aabb c (fold_left aabb_expand pts (Box p0 p0)))
  end.

(** NURBSCurve(control_points, degree, knots, periodic), nurbs.h:120-125 *)
Definition fmake_knots (cps : list vec4) (degree : nat) (knots : list Qc) (periodic : bool) : res ncurve :=
  c <- update_interval (NC cps degree knots periodic [] (0, 1) aabb_default) ;; frebuildAABB c.

(** split, nurbs.h:268-316, with normalize_knots = false only *)
Definition fsplit (c : ncurve) (param : Qc) : res (ncurve * ncurve) :=
  let '(i0, i1) := nc_interval c in
  if (param <=? i0) || (i1 <=? param) then Throw EInvalidArgument else
  d0 <- rnd 0 (param - i0) ;;
  if Qcabs d0 <=? lit_1em12 then Throw EInvalidArgument else
  d1 <- rnd 0 (param - i1) ;;
  if Qcabs d1 <=? lit_1em12 then Throw EInvalidArgument else
  let n := length (nc_cps c) in
  let p := nc_degree c in
  sp <- find_span n p param (nc_knots c) ;;
  let ks := (Z.of_nat sp - Z.of_nat p + 1)%Z in
  s <- ffind_multiplicity fl param (nc_knots c) ;;
  if Nat.ltb p s then UB else
  let r := (p - s)%nat in
  temp <- fmake_knots (nc_cps c) p (nc_knots c) (nc_periodic c) ;;
  temp <- update_interval temp ;;
  temp <- finsert_knot fl temp param r ;;
  sp2 <- find_span (length (nc_cps temp)) p param (nc_knots temp) ;;
  let knot_span := (sp2 + 1)%nat in
  kv1 <- sub_vec (nc_knots temp) 0 (Z.of_nat knot_span) ;;
  kv2 <- sub_vec (nc_knots temp) (Z.of_nat knot_span) (Z.of_nat (length (nc_knots temp))) ;;
  let kv1 := kv1 ++ [param] in
  let kv2 := repeat param (p + 1) ++ kv2 in
  cp1 <- sub_vec (nc_cps temp) 0 (ks + Z.of_nat r) ;;
  cp2 <- sub_vec (nc_cps temp) (ks + Z.of_nat r - 1) (Z.of_nat (length (nc_cps temp))) ;;
  c1 <- fmake_knots cp1 p kv1 false ;;
  c2 <- fmake_knots cp2 p kv2 false ;;
  Ok (c1, c2).
End Rounded.
