(** Model of the derivatives of curves: ders_basis_funs, curve_derivs_alg1 and
    get_nurbs_derivative (cmmcore/nurbs_utils.h) and the members of NURBSCurve
    (cmmcore/nurbs.h) that use them or finite differences.

    As in ModelNurbs, a division by zero is the outcome UB. *)
From Coq Require Import List ZArith QArith Qcanon Bool.
From Verif Require Import Base ModelVec ModelAabb ModelNurbs.
Import ListNotations.
Open Scope Qc_scope.

(** vec4::operator[], vec.h:774-801. The index is a size_t: a negative int
    becomes a huge one and is rejected in the same way. *)
Definition v4get (v : vec4) (i : Z) : res Qc :=
  if (i =? 0)%Z then Ok (wx v) else if (i =? 1)%Z then Ok (wy v) else
  if (i =? 2)%Z then Ok (wz v) else if (i =? 3)%Z then Ok (ww v) else Throw EInvalidArgument.
Definition v4put (v : vec4) (i : Z) (x : Qc) : res vec4 :=
  if (i =? 0)%Z then Ok (V4 x (wy v) (wz v) (ww v)) else if (i =? 1)%Z then Ok (V4 (wx v) x (wz v) (ww v)) else
  if (i =? 2)%Z then Ok (V4 (wx v) (wy v) x (ww v)) else if (i =? 3)%Z then Ok (V4 (wx v) (wy v) (wz v) x) else
  Throw EInvalidArgument.

(** m[i][j] and m[i][j] = x for an array or vector of vec4: the first index is
    not checked, the second is *)
Definition row_get (m : list vec4) (i j : Z) : res Qc := v <- getZ m i ;; v4get v j.
Definition row_put (m : list vec4) (i j : Z) (x : Qc) : res (list vec4) :=
  v <- getZ m i ;; v <- v4put v j x ;; set_nthZ m i v.

(** the inner loop over r, nurbs_utils.h:190-195; state: ndu, saved *)
Definition ndu_inner (j : nat) (lft rgt : list Qc) (r : nat) (st : list vec4 * Qc) : res (list vec4 * Qc) :=
  let '(ndu, saved) := st in
  let zj := Z.of_nat j in let zr := Z.of_nat r in
  rr <- get rgt (r + 1) ;;
  lj <- get lft (j - r) ;;
  ndu <- row_put ndu zj zr (rr + lj) ;;
  a <- row_get ndu zr (zj - 1) ;;
  b <- row_get ndu zj zr ;;
  temp <- qdiv a b ;;
  ndu <- row_put ndu zr zj (saved + rr * temp) ;;
  Ok (ndu, lj * temp).

(** the outer loop over j, nurbs_utils.h:185-197; state: ndu, left, right *)
Definition ndu_outer (i : nat) (u : Qc) (U : list Qc) (j : nat) (st : list vec4 * list Qc * list Qc)
  : res (list vec4 * list Qc * list Qc) :=
  let '(ndu, lft, rgt) := st in
  a <- getZ U (Z.of_nat i + 1 - Z.of_nat j) ;;
  lft <- set_nth lft j (u - a) ;;
  b <- get U (i + j) ;;
  rgt <- set_nth rgt j (b - u) ;;
  '(ndu, saved) <- for_up j 0 (ndu_inner j lft rgt) (ndu, 0) ;;
  ndu <- row_put ndu (Z.of_nat j) (Z.of_nat j) saved ;;
  Ok (ndu, lft, rgt).

(** the loop over j, nurbs_utils.h:227-230; state: a, d *)
Definition ders_j (ndu : list vec4) (s1 s2 pk rk : Z) (j1 : Z) (jj : nat) (st : list vec4 * Qc) : res (list vec4 * Qc) :=
  let '(a, d) := st in
  let j := (j1 + Z.of_nat jj)%Z in
  x <- row_get a s1 j ;;
  y <- row_get a s1 (j - 1) ;;
  z <- row_get ndu (pk + 1) (rk + j) ;;
  q <- qdiv (x - y) z ;;
  a <- row_put a s2 j q ;;
  w <- row_get ndu (rk + j) pk ;;
  Ok (a, d + q * w).

(** the body of the loop over k, nurbs_utils.h:212-243; state: s1, a, ders
    (s2 is 1 - s1 throughout) *)
Definition ders_k (p : nat) (ndu : list vec4) (r : nat) (k : nat) (st : Z * list vec4 * list vec4)
  : res (Z * list vec4 * list vec4) :=
  let '(s1, a, ders) := st in
  let s2 := (1 - s1)%Z in
  let zr := Z.of_nat r in let zk := Z.of_nat k in let zp := Z.of_nat p in
  let rk := (zr - zk)%Z in let pk := (zp - zk)%Z in
  '(a, d) <- (if (zk <=? zr)%Z then
                x <- row_get a s1 0 ;;
                z <- row_get ndu (pk + 1) rk ;;
                q <- qdiv x z ;;
                a <- row_put a s2 0 q ;;
                w <- row_get ndu rk pk ;;
                Ok (a, q * w)
              else a <- row_put a s2 0 0 ;; Ok (a, 0)) ;;
  let j1 := if (-1 <=? rk)%Z then 1%Z else (- rk)%Z in
  let j2 := if (zr - 1 <=? pk)%Z then (zk - 1)%Z else (zp - zr)%Z in
  '(a, d) <- for_up (Z.to_nat (j2 - j1 + 1)) 0 (ders_j ndu s1 s2 pk rk j1) (a, d) ;;
  '(a, d) <- (if (zr <=? pk)%Z then
                x <- row_get a s1 (zk - 1) ;;
                z <- row_get ndu (pk + 1) zr ;;
                q <- qdiv (- x) z ;;
                a <- row_put a s2 zk q ;;
                w <- row_get ndu zr pk ;;
                Ok (a, d + q * w)
              else a <- row_put a s2 zk 0 ;; Ok (a, d)) ;;
  ders <- row_put ders zk zr d ;;
  Ok (s2, a, ders).

(** the body of the loop over r, nurbs_utils.h:205-244; a keeps its contents
    from one r to the next *)
Definition ders_r (p n : nat) (ndu : list vec4) (r : nat) (st : list vec4 * list vec4) : res (list vec4 * list vec4) :=
  let '(a, ders) := st in
  a <- row_put a 0 0 1 ;;
  '(_, a, ders) <- for_up n 1 (ders_k p ndu r) (0%Z, a, ders) ;;
  Ok (a, ders).

(** the factors, nurbs_utils.h:247-253; state: r, ders. For the degrees that
    get this far the int product cannot overflow. *)
Definition ders_factor (p : nat) (k : nat) (st : Z * list vec4) : res (Z * list vec4) :=
  let '(r, ders) := st in
  ders <- for_up (p + 1) 0 (fun j ders =>
            x <- row_get ders (Z.of_nat k) (Z.of_nat j) ;;
            row_put ders (Z.of_nat k) (Z.of_nat j) (x * Qc_of_Z r)) ders ;;
  Ok ((r * (Z.of_nat p - Z.of_nat k))%Z, ders).

(** ders_basis_funs, nurbs_utils.h:164-254: the vector ders after the call *)
Definition ders_basis_funs (i : nat) (u : Qc) (p n : nat) (U : list Qc) : res (list vec4) :=
  let ders := repeat v4zero (n + 1) in
  ndu <- row_put (repeat v4zero DEG_STACK_SIZE) 0 0 1 ;;
  '(ndu, _, _) <- for_up p 1 (ndu_outer i u U) (ndu, zeros, zeros) ;;
  ders <- for_up (p + 1) 0 (fun j ders =>
            x <- row_get ndu (Z.of_nat j) (Z.of_nat p) ;; row_put ders 0 (Z.of_nat j) x) ders ;;
  '(_, ders) <- for_up (p + 1) 0 (ders_r p n ndu) (repeat v4zero 2, ders) ;;
  '(_, ders) <- for_up n 1 (ders_factor p) (Z.of_nat p, ders) ;;
  Ok ders.

(** the loop over l, nurbs_utils.h:293-295, for the four components at once *)
Definition ck_add (c : vec4) (x : Qc) (p : vec4) : vec4 :=
  V4 (wx c + x * wx p) (wy c + x * wy p) (wz c + x * wz p) (ww c + x * ww p).

(** curve_derivs_alg1, nurbs_utils.h:268-298: the vector CK after the call *)
Definition curve_derivs_alg1 (n p : nat) (U : list Qc) (P : list vec4) (u : Qc) (d : nat) (periodic : bool)
  : res (list vec4) :=
  let du := Nat.min d p in
  span <- find_span n p u U ;;
  nders <- ders_basis_funs span u p du U ;;
  for_up (du + 1) 0 (fun k CK =>
    for_up (p + 1) 0 (fun j CK =>
      let idx := (Z.of_nat span - Z.of_nat p + Z.of_nat j)%Z in
      let size := Z.of_nat (length P) in
      let idx := if periodic then ((idx + size) mod size)%Z else idx in
      pt <- getZ P idx ;;
      x <- row_get nders (Z.of_nat k) (Z.of_nat j) ;;
      c <- get CK k ;;
      set_nth CK k (ck_add c x pt)) CK) (repeat v4zero (du + 1)).

(** derivative(t, result), nurbs.h:327-338. CK[1] past the end is UB. *)
Definition nc_derivative (c : ncurve) (t : Qc) : res vec3 :=
  match length (nc_cps c) with
  | O => UB
  | S n =>
      CK <- curve_derivs_alg1 n (nc_degree c) (nc_knots c) (nc_cps c) t 1 (nc_periodic c) ;;
      der <- get CK 1 ;;
      Ok (V3 (wx der) (wy der) (wz der))
  end.

(** derivative(t, result, d), nurbs.h:380-392: the vector result after the call *)
Definition nc_derivatives (c : ncurve) (t : Qc) (d : nat) : res (list vec3) :=
  match length (nc_cps c) with
  | O => UB
  | S n =>
      CK <- curve_derivs_alg1 n (nc_degree c) (nc_knots c) (nc_cps c) t d (nc_periodic c) ;;
      mapM (fun i => der <- get CK i ;; Ok (V3 (wx der) (wy der) (wz der))) (seq 0 d)
  end.

(** the literals 1e-5, 2e-5 (twice the first, exactly) and 1e-10 as doubles *)
Definition fdm_h : Qc := Q2Qc (5902958103587057 # 590295810358705651712).
Definition fdm_2h : Qc := Q2Qc (5902958103587057 # 295147905179352825856).
Definition fdm_hh : Qc := Q2Qc (7737125245533627 # 77371252455336267181195264).

Definition v3scale_div (v : vec3) (k : Qc) : vec3 := V3 (vx v / k) (vy v / k) (vz v / k).
Definition v3minus (a b : vec3) : vec3 := V3 (vx a - vx b) (vy a - vy b) (vz a - vz b).
Definition v3plus (a b : vec3) : vec3 := V3 (vx a + vx b) (vy a + vy b) (vz a + vz b).

(** derivatives(t, d0, d1, d2), nurbs.h:398-408 *)
Definition nc_derivatives_fdm (c : ncurve) (t : Qc) : res (vec3 * vec3 * vec3) :=
  d0 <- evaluate c t ;;
  temp <- evaluate c (t - fdm_h) ;;
  d2 <- evaluate c (t + fdm_h) ;;
  let d1 := v3scale_div (v3minus d2 temp) fdm_2h in
  let d2 := v3minus d2 (v3plus d0 d0) in
  let d2 := v3plus d2 temp in
  Ok (d0, d1, v3scale_div d2 fdm_hh).

(** derivative_fdm, nurbs.h:410-416 *)
Definition nc_derivative_fdm (c : ncurve) (t : Qc) : res vec3 :=
  temp <- evaluate c (t - fdm_h) ;;
  r <- evaluate c (t + fdm_h) ;;
  Ok (v3scale_div (v3minus r temp) fdm_2h).

(** second_derivative_fdm, nurbs.h:423-429 *)
Definition nc_second_derivative_fdm (c : ncurve) (t : Qc) : res vec3 :=
  temp <- evaluate c (t - fdm_h) ;;
  r <- evaluate c (t + fdm_h) ;;
  Ok (v3scale_div (v3minus r temp) fdm_2h).

(** one control point of get_nurbs_derivative, nurbs_utils.h:1028-1045 *)
Definition der_point (degree : nat) (knots : list Qc) (cps : list vec4) (i : nat) : res vec4 :=
  p1 <- get cps i ;;
  p2 <- get cps (i + 1) ;;
  a <- get knots (i + degree + 1) ;;
  b <- get knots (i + 1) ;;
  let den := (a - b) * (ww p1 + ww p2) in
  w <- qdiv (ww p1 * ww p2) (ww p1 + ww p2) ;;
  let k := Qc_of_nat degree in
  x <- qdiv (wx p2 * ww p2 - wx p1 * ww p1) den ;; x <- qdiv (x * k) w ;;
  y <- qdiv (wy p2 * ww p2 - wy p1 * ww p1) den ;; y <- qdiv (y * k) w ;;
  z <- qdiv (wz p2 * ww p2 - wz p1 * ww p1) den ;; z <- qdiv (z * k) w ;;
  Ok (V4 x y z 1).

(** get_nurbs_derivative, nurbs_utils.h:1011-1046: degree, knots and control
    points of the result. Resizing a vector to a negative number of elements
    throws. A degree of zero, for which the result's degree would be -1, is the
    outcome UB. *)
Definition get_nurbs_derivative (degree : nat) (knots : list Qc) (cps : list vec4)
  : res (nat * list Qc * list vec4) :=
  match degree with
  | O => UB
  | S q =>
      match cps with
      | [] => Throw ELength
      | _ :: _ =>
          if Nat.ltb (length knots) 2 then Throw ELength else
          pts <- mapM (der_point degree knots cps) (seq 0 (length cps - 1)) ;;
          Ok (q, firstn (length knots - 2) (skipn 1 knots), pts)
      end
  end.

(** get_derivative(derivative), nurbs.h:444-449: the argument after the call;
    its other members keep their values *)
Definition nc_get_derivative_into (c d : ncurve) : res ncurve :=
  '(q, kn, pts) <- get_nurbs_derivative (nc_degree c) (nc_knots c) (nc_cps c) ;;
  update_interval (NC pts q kn (nc_periodic d) (nc_hull d) (nc_interval d) (nc_aabb d)).

(** get_derivative(), nurbs.h:451-457 *)
Definition nc_get_derivative (c : ncurve) : res ncurve := nc_get_derivative_into c nc_default.
