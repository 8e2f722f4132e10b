(** Model of knot insertion (nurbs.h, nurbs_utils.h) with a rounding after every
    operation on doubles, as in ModelRound. Products that are added at once: 5
    for temp[i + 1] * alpha, 6 for temp[i] * (1 - alpha). Copies and comparisons
    are exact. *)
From Coq Require Import List ZArith QArith Qcanon Bool.
From Verif Require Import Base ModelVec ModelNurbs ModelRound.
Import ListNotations.
Open Scope Qc_scope.

Section Rounded.
Variable fl : nat -> Qc -> option Qc.
Notation rnd := (rnd fl).

(** find_multiplicity, nurbs_utils.h:584-593 *)
Fixpoint fmultiplicity_from (m : nat) (t : Qc) (knots : list Qc) : res nat :=
  match knots with
  | [] => Ok m
  | kv :: rest => d <- rnd 0 (t - kv) ;; fmultiplicity_from (if Qcabs d <=? lit_1em12 then S m else m) t rest
  end.
Definition ffind_multiplicity (t : Qc) (knots : list Qc) : res nat := fmultiplicity_from 0 t knots.

(** knot_insertion_alpha, nurbs_utils.h:605-608 *)
Definition falpha (u : Qc) (knots : list Qc) (span idx leg : Z) : res Qc :=
  a <- getZ knots (leg + idx) ;;
  b <- getZ knots (idx + span + 1) ;;
  n <- rnd 0 (u - a) ;;
  d <- rnd 0 (b - a) ;;
  q <- qdiv n d ;;
  rnd 0 q.

(** one component of temp[i + 1] * alpha + temp[i] * (1 - alpha), nurbs_utils.h:682,
    vec.h:887-903 *)
Definition fblend (x1 x0 alpha beta : Qc) : res Qc :=
  m1 <- rnd 5 (x1 * alpha) ;; m0 <- rnd 6 (x0 * beta) ;; rnd 0 (m1 + m0).

(** body of the inner loop, nurbs_utils.h:680-683 *)
Definition finsertion_inner (u : Qc) (knots : list Qc) (span L : Z) (i : nat) (temp : list vec4) : res (list vec4) :=
  alpha <- falpha u knots span (Z.of_nat i) L ;;
  t1 <- get temp (i + 1) ;;
  t0 <- get temp i ;;
  beta <- rnd 0 (1 - alpha) ;;
  x <- fblend (wx t1) (wx t0) alpha beta ;;
  y <- fblend (wy t1) (wy t0) alpha beta ;;
  z <- fblend (wz t1) (wz t0) alpha beta ;;
  w <- fblend (ww t1) (ww t0) alpha beta ;;
  set_nth temp i (V4 x y z w).

(** body of the outer loop, nurbs_utils.h:678-686 *)
Definition finsertion_outer (degree : nat) (knots : list Qc) (u : Qc) (num s span : nat) (j : nat)
    (st : list vec4 * list vec4) : res (list vec4 * list vec4) :=
  let '(temp, new) := st in
  let L := (Z.of_nat span - Z.of_nat degree + Z.of_nat j)%Z in
  if Nat.ltb degree (j + s) then UB else
  temp <- for_up (degree - j - s + 1) 0 (finsertion_inner u knots (Z.of_nat span) L) temp ;;
  t0 <- get temp 0 ;;
  new <- set_nthZ new L t0 ;;
  t1 <- get temp (degree - j - s) ;;
  new <- set_nthZ new (Z.of_nat span + Z.of_nat num - Z.of_nat j - Z.of_nat s) t1 ;;
  Ok (temp, new).

(** knot_insertion, nurbs_utils.h:655-692 *)
Definition fknot_insertion (degree : nat) (knots : list Qc) (ctrlpts : list vec4) (u : Qc) (num s span : nat)
    (new : list vec4) : res (list vec4) :=
  let zs := Z.of_nat span in let zd := Z.of_nat degree in let zm := Z.of_nat s in let zr := Z.of_nat num in
  let np := Z.of_nat (length ctrlpts) in
  let new := resize new (length ctrlpts + num) in
  new <- copy_range ctrlpts 0 (zs - zd + 1) new 0 ;;
  new <- copy_range ctrlpts (zs - zm) (np - (zs - zm)) new (zs - zm + zr) ;;
  temp <- copy_range ctrlpts (zs - zd) (zd - zm + 1) (repeat v4zero DEG_STACK_SIZE) 0 ;;
  '(temp, new) <- for_up num 1 (finsertion_outer degree knots u num s span) (temp, new) ;;
  let L := (zs - zd + zr)%Z in
  for_up (Z.to_nat (zs - zm - (L + 1))) 0 (fun i new =>
    t <- getZ temp (1 + Z.of_nat i) ;;
    set_nthZ new (L + 1 + Z.of_nat i) t) new.

(** cpts.back() - i, nurbs.h:259, vec.h:697, 884-886 *)
Definition fv4sub_scalar (a : vec4) (k : Qc) : res vec4 :=
  x <- rnd 0 (wx a - k) ;; y <- rnd 0 (wy a - k) ;; z <- rnd 0 (wz a - k) ;; w <- rnd 0 (ww a - k) ;; Ok (V4 x y z w).

(** insert_knot, nurbs.h:243-265 *)
Definition finsert_knot (c : ncurve) (t : Qc) (count : nat) : res ncurve :=
  match length (nc_cps c) with
  | O => UB
  | S n1 =>
      let n := S n1 in
      let cpts := nc_cps c in
      span <- find_span (n - 1) (nc_degree c) t (nc_knots c) ;;
      k_v <- knot_insertion_kv (nc_knots c) t span count ;;
      s_u <- ffind_multiplicity t (nc_knots c) ;;
      let cp := resize cpts (n + count) in
      cp <- for_up (count + 1) 0 (fun i cp => v <- fv4sub_scalar (last cpts v4zero) (Qc_of_nat i) ;; set_nth cp i v) cp ;;
      cp <- fknot_insertion (nc_degree c) (nc_knots c) cpts t count s_u span cp ;;
      update_interval (nc_set_knots (nc_set_cps c cp) k_v)
  end.
End Rounded.
