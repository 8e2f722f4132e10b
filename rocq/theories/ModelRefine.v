(** Refinement and removal of knots and control points of derivatives:
    cmmcore/nurbs_utils.h:314-424, 516-574, 615-630, 731-945. Arithmetic is exact;
    the quotients of [qdiv] are undefined for a zero divisor, where the program
    makes infinities or stops at an assert. *)
From Coq Require Import List ZArith QArith Qcanon Bool.
From Verif Require Import Base ModelVec ModelNurbs ModelSurface ModelBinom.
Import ListNotations.
Open Scope Qc_scope.

(** a - b as an index: a negative one is UB *)
Definition minus (a b : nat) : res nat := if Nat.leb b a then Ok (a - b)%nat else UB.

(** ** knot_refinement, nurbs_utils.h:845-945, is_periodic = false *)

(** insertion into a std::set<double> (kept as the increasing list of its elements),
    nurbs_utils.h:866 *)
Fixpoint set_insert (x : Qc) (l : list Qc) : list Qc :=
  match l with
  | [] => [x]
  | y :: t => if x <? y then x :: l else if x =? y then l else y :: set_insert x t
  end.

(** one round of density refinement, nurbs_utils.h:871-877; the size of an empty
    list minus one is 2^64 - 1, and new_knots[0] is out of range *)
Fixpoint halves (l : list Qc) : list Qc :=
  match l with
  | x :: ((y :: _) as t) => x :: (x + (y - x) / qc 2 1) :: halves t
  | l => l
  end.
Definition halve (l : list Qc) : res (list Qc) := match l with [] => UB | _ => Ok (halves l) end.

(** new_knots, nurbs_utils.h:857-878 *)
Definition refine_values (degree : nat) (knots knot_list add_list : list Qc) (density : Z) : res (list Qc) :=
  base <- (match knot_list with
           | [] => sub_vec knots (Z.of_nat degree) (Z.of_nat (length knots) - Z.of_nat degree)
           | _ => Ok knot_list end) ;;
  let new_knots := fold_left (fun s x => set_insert x s) (base ++ add_list) [] in
  for_up (Z.to_nat (density - 1)) 0 (fun _ l => halve l) new_knots.

(** X, nurbs_utils.h:881-888; a negative r gives no copies *)
Definition refine_inserts (degree : nat) (knots new_knots : list Qc) : list Qc :=
  flat_map (fun mk => repeat mk (degree - find_multiplicity mk knots)) new_knots.

(** the inner while loop, nurbs_utils.h:918-923; X[j] and knots[i] are read first *)
Fixpoint refine_down (p a : nat) (x : Qc) (knots : list Qc) (P : list vec4) (i k : nat) (Q : list vec4) (kv : list Qc)
  : res (nat * nat * list vec4 * list Qc) :=
  ki <- get knots i ;;
  if (x <=? ki) && Nat.ltb a i then
    match i with
    | O => UB (* not reached: a < i *)
    | S i' =>
        dst <- minus k (p + 1) ;;
        src <- minus i (p + 1) ;;
        pt <- get P src ;;
        Q <- set_nth Q dst pt ;;
        kv <- set_nth kv k ki ;;
        k' <- minus k 1 ;;
        refine_down p a x knots P i' k' Q kv
    end
  else Ok (i, k, Q, kv).

(** the body of the loop over l, nurbs_utils.h:925-937 *)
Definition refine_blend (p : nat) (x : Qc) (knots : list Qc) (i k : nat) (kv : list Qc) (l : nat) (Q : list vec4) : res (list vec4) :=
  let idx := (k - p + l)%nat in
  kl <- get kv (k + l) ;;
  q1 <- get Q idx ;;
  q0 <- get Q (idx - 1) ;;
  if Qcabs (kl - x) <? lit_1em8 then set_nth Q (idx - 1) q1
  else
    ui <- getZ knots (Z.of_nat i - Z.of_nat p + Z.of_nat l) ;;
    alpha <- qdiv (kl - x) (kl - ui) ;;
    set_nth Q (idx - 1) (v4add (v4scale q0 alpha) (v4scale q1 (1 - alpha))).

(** the outer while loop, nurbs_utils.h:917-942; [xs] is X[j], X[j-1], ..., X[0] *)
Fixpoint refine_loop (p a : nat) (knots : list Qc) (P : list vec4) (xs : list Qc) (i k : nat) (Q : list vec4) (kv : list Qc)
  : res (list vec4 * list Qc) :=
  match xs with
  | [] => Ok (Q, kv)
  | x :: xs =>
      '(i, k, Q, kv) <- refine_down p a x knots P i k Q kv ;;
      dst <- minus k (p + 1) ;;
      q <- get Q (dst + 1) ;;
      Q <- set_nth Q dst q ;;
      Q <- for_up p 1 (refine_blend p x knots i k kv) Q ;;
      kv <- set_nth kv k x ;;
      k' <- minus k 1 ;;
      refine_loop p a knots P xs i k' Q kv
  end.

(** nurbs_utils.h:894-914: the copied parts *)
Definition refine_init (p n a b R : nat) (knots : list Qc) (P : list vec4) : res (list vec4 * list Qc) :=
  let m := (n + p + 1)%nat in
  Q <- for_up (a - p + 1) 0 (fun j Q => q <- get P j ;; set_nth Q j q) (repeat v4zero (n + R + 1)) ;;
  Q <- for_up (n + 2 - b) (b - 1) (fun j Q => q <- get P j ;; set_nth Q (j + R) q) Q ;;
  kv <- for_up (a + 1) 0 (fun j kv => u <- get knots j ;; set_nth kv j u) (repeat 0 (m + R + 1)) ;;
  kv <- for_up (m + 1 - (b + p)) (b + p) (fun j kv => u <- get knots j ;; set_nth kv (j + R) u) kv ;;
  Ok (Q, kv).

(** knot_refinement, nurbs_utils.h:845-945; R is r_val + 1 *)
Definition knot_refinement (degree : nat) (knots : list Qc) (ctrlpts : list vec4) (knot_list add_list : list Qc) (density : Z)
  : res (list vec4 * list Qc) :=
  match ctrlpts with
  | [] => UB
  | _ =>
      let n := (length ctrlpts - 1)%nat in
      new_knots <- refine_values degree knots knot_list add_list density ;;
      let X := refine_inserts degree knots new_knots in
      match X with
      | [] => Throw ERuntime
      | x0 :: _ =>
          let R := length X in
          a <- find_span n degree x0 knots ;;
          b' <- find_span n degree (last X 0) knots ;;
          let b := (b' + 1)%nat in
          '(Q, kv) <- refine_init degree n a b R knots ctrlpts ;;
          refine_loop degree a knots ctrlpts (rev X) (b + degree - 1) (b + degree + R - 1) Q kv
      end
  end.

(** ** knot_removal, nurbs_utils.h:757-830, is_periodic = false *)

(** point_distance(a, b, 4) <= tol, nurbs_utils.h:731-737: sqrt(s) <= tol exactly when
    0 <= tol and s <= tol^2 *)
Definition near4 (a b : vec4) (tol : Qc) : bool :=
  let sq x := x * x in
  (0 <=? tol) && (sq (wx a - wx b) + sq (wy a - wy b) + sq (wz a - wz b) + sq (ww a - ww b) <=? tol * tol).

(** knot_removal_alpha_i, knot_removal_alpha_j, nurbs_utils.h:615-630 *)
Definition removal_alpha_i (u : Qc) (degree : nat) (knots : list Qc) (num idx : Z) : res Qc :=
  a <- getZ knots idx ;; b <- getZ knots (idx + Z.of_nat degree + 1 + num) ;; qdiv (u - a) (b - a).
Definition removal_alpha_j (u : Qc) (degree : nat) (knots : list Qc) (num idx : Z) : res Qc :=
  a <- getZ knots (idx - num) ;; b <- getZ knots (idx + Z.of_nat degree + 1) ;; qdiv (u - a) (b - a).

Definition v4quot (a : vec4) (k : Qc) : res vec4 :=
  x <- qdiv (wx a) k ;; y <- qdiv (wy a) k ;; z <- qdiv (wz a) k ;; w <- qdiv (ww a) k ;; Ok (V4 x y z w).
Definition v4axmy (a : vec4) (k : Qc) (b : vec4) : vec4 := v4axpy a (- k) b.

(** the first inner loop, nurbs_utils.h:783-795. j - i shrinks by two, so
    [fuel] = last - first + 2 suffices; without fuel UB. *)
Fixpoint removal_in (fuel : nat) (u : Qc) (degree : nat) (knots : list Qc) (P : list vec4) (t i j ii jj : Z) (temp : list vec4)
  : res (Z * Z * Z * Z * list vec4) :=
  if (t <=? j - i)%Z then
    match fuel with
    | O => UB
    | S fuel =>
        ai <- removal_alpha_i u degree knots t i ;;
        aj <- removal_alpha_j u degree knots t j ;;
        pi <- getZ P i ;; pj <- getZ P j ;;
        ti <- getZ temp (ii - 1) ;;
        x <- v4quot (v4axmy pi (1 - ai) ti) ai ;;
        temp <- set_nthZ temp ii x ;;
        tj <- getZ temp (jj + 1) ;;
        y <- v4quot (v4axmy pj aj tj) (1 - aj) ;;
        temp <- set_nthZ temp jj y ;;
        removal_in fuel u degree knots P t (i + 1) (j - 1) (ii + 1) (jj - 1) temp
    end
  else Ok (i, j, ii, jj, temp).

(** the copying loop, nurbs_utils.h:813-818, with the same fuel *)
Fixpoint removal_out (fuel : nat) (t i j first : Z) (temp new : list vec4) : res (list vec4) :=
  if (t <? j - i)%Z then
    match fuel with
    | O => UB
    | S fuel =>
        x <- getZ temp (i - first + 1) ;; new <- set_nthZ new i x ;;
        y <- getZ temp (j - first + 1) ;; new <- set_nthZ new j y ;;
        removal_out fuel t (i + 1) (j - 1) first temp new
    end
  else Ok new.

(** one round, nurbs_utils.h:774-823; in the first loop the components are computed
    one after another, and ii, jj = ii + 1 or jj = ii only share a cell the
    second writes *)
Definition removal_round (u : Qc) (degree : nat) (knots : list Qc) (P : list vec4) (tol : Qc) (t : nat)
    (st : list vec4 * list vec4 * Z * Z) : res (list vec4 * list vec4 * Z * Z) :=
  let '(new, temp, first, last) := st in
  let t := Z.of_nat t in
  let fuel := Z.to_nat (last - first + 2) in
  p0 <- getZ P (first - 1) ;;
  temp <- set_nthZ temp 0 p0 ;;
  p1 <- getZ P (last + 1) ;;
  temp <- set_nthZ temp (last - first + 2) p1 ;;
  '(i, j, ii, jj, temp) <- removal_in fuel u degree knots P t first last 1 (last - first + 1) temp ;;
  ok <- (if (j - i <? t)%Z then
           a <- getZ temp (ii - 1) ;; b <- getZ temp (jj + 1) ;; Ok (near4 a b tol)
         else
           ai <- removal_alpha_i u degree knots t i ;;
           a <- getZ temp (ii + t + 1) ;; b <- getZ temp (ii - 1) ;;
           pi <- getZ P i ;;
           Ok (near4 pi (v4add (v4scale a ai) (v4scale b (1 - ai))) tol)) ;;
  new <- (if ok : bool then removal_out fuel t first last first temp new else Ok new) ;;
  Ok (new, temp, (first - 1)%Z, (last + 1)%Z).

Definition knot_removal (degree : nat) (knots : list Qc) (ctrlpts : list vec4) (u tol : Qc) (num : nat) : res (list vec4) :=
  match ctrlpts with
  | [] => UB
  | _ =>
      let s := find_multiplicity u knots in
      r <- find_span (length ctrlpts - 1) degree u knots ;;
      '(new, _, _, _) <- for_up num 0 (removal_round u degree knots ctrlpts tol)
        (ctrlpts, repeat v4zero (2 * degree + 1), (Z.of_nat r - Z.of_nat degree)%Z, (Z.of_nat r - Z.of_nat s)%Z) ;;
      if Nat.ltb (length new) num then Throw ELength (* resize to a size near 2^64 *)
      else Ok (firstn (length new - num) new)
  end.

(** ** control points of derivatives *)

(** one entry, nurbs_utils.h:331-336; a zero denominator fails the assert *)
Definition deriv_entry (p r1 : nat) (U : list Qc) (k : nat) (prev : list vec4) (i : nat) : res vec4 :=
  hi <- get U (r1 + i + p + 1) ;;
  lo <- get U (r1 + i + k) ;;
  a <- get prev (i + 1) ;;
  b <- get prev i ;;
  v4quot (v4scale (v4axpy a (- (1)) b) (Qc_of_Z (Z.of_nat p - Z.of_nat k + 1))) (hi - lo).

(** curve_deriv_cpts, nurbs_utils.h:314-339. Row k is built from row k - 1; its
    entries from r - k + 1 on keep the initial zeros. [d] is not negative; r1 > r2 + 1
    would make a vector of negative size. *)
Fixpoint deriv_rows (p r1 r : nat) (U : list Qc) (k count : nat) (prev : list vec4) : res (list (list vec4)) :=
  match count with
  | O => Ok []
  | S c =>
      es <- mapM (deriv_entry p r1 U k prev) (seq 0 (r + 1 - k)) ;;
      let row := es ++ repeat v4zero (Nat.min k (r + 1)) in
      rows <- deriv_rows p r1 r U (S k) c row ;;
      Ok (row :: rows)
  end.
Definition curve_deriv_cpts (p : nat) (U : list Qc) (P : list vec4) (d r1 r2 : nat) : res (list (list vec4)) :=
  match P with
  | [] => UB
  | _ =>
      r <- minus r2 r1 ;;
      row <- mapM (fun i => get P (r1 + i)) (seq 0 (r + 1)) ;;
      rows <- deriv_rows p r1 r U 1 d row ;;
      Ok (row :: rows)
  end.

(** PKL[k][l][i][j] = x *)
Definition set2 {A} (t : list (list A)) (i j : nat) (x : A) : res (list (list A)) :=
  row <- get t i ;; row <- set_nth row j x ;; set_nth t i row.
Definition set4 {A} (t : list (list (list (list A)))) (k l i j : nat) (x : A) : res (list (list (list (list A)))) :=
  m <- (row <- get t k ;; get row l) ;; m <- set2 m i j x ;; set2 t k l m.
Definition get4 {A} (t : list (list (list (list A)))) (k l i j : nat) : res A :=
  a <- get t k ;; b <- get a l ;; c <- get b i ;; get c j.

(** surface_deriv_cpts, nurbs_utils.h:363-424. [cs0], [cs1] are cpsize; [r0], [r1] are rs,
    [s0], [s1] are ss. The parameter dim is not used. *)
Definition surface_deriv_cpts (p q : nat) (ku kv : list Qc) (cpts : list (list vec4)) (cs0 cs1 r0 r1 s0 s1 order : nat)
  : res (list (list (list (list vec4)))) :=
  let du := Nat.min p order in
  let dv := Nat.min q order in
  r <- minus r1 r0 ;;
  s <- minus s1 s0 ;;
  let PKL := repeat (repeat (repeat (repeat v4zero (s + 1)) (r + 1)) (dv + 1)) (du + 1) in
  PKL <- for_up (s + 1) s0 (fun j PKL =>
    row <- get cpts j ;;
    temp <- mapM (get row) (seq 0 cs0) ;;
    PKu <- curve_deriv_cpts p ku temp du r0 r1 ;;
    for_up (du + 1) 0 (fun k PKL =>
      for_up (r + 1 - k) 0 (fun i PKL =>
        x <- (m <- get PKu k ;; get m i) ;; set4 PKL k 0 i (j - s0) x) PKL) PKL) PKL ;;
  '(PKL, _) <- for_up (du + 1) 0 (fun k st =>
    for_up (r + 1 - k) 0 (fun i st =>
      let '(PKL, temp) := st in
      let dd := Nat.min (order - k) dv in
      temp <- for_up (s + 1) 0 (fun j temp => x <- get4 PKL k 0 i j ;; set_nth temp j x) temp ;;
      PKuv <- curve_deriv_cpts q kv temp dd s0 s1 ;;
      PKL <- for_up dd 1 (fun l PKL =>
        for_up (s + 1 - l) 0 (fun j PKL =>
          x <- (m <- get PKuv l ;; get m j) ;; set4 PKL k l i j x) PKL) PKL ;;
      Ok (PKL, temp)) st) (PKL, repeat v4zero cs1) ;;
  Ok PKL.

(** rat_surface_derivs, nurbs_utils.h:516-574. v and v2 are kept as the first three
    components; the fourth of v is not used, that of the results stays 0. *)
Definition binc (n k : nat) : res Qc := c <- binomial_coefficient (Z.of_nat n) (Z.of_nat k) ;; Ok (Qc_of_Z c).
Definition xyz_of (q : vec4) : vec3 := V3 (wx q) (wy q) (wz q).
Definition v3mac (v : vec3) (k : Qc) (q : vec4) : vec3 := V3 (vx v + k * wx q) (vy v + k * wy q) (vz v + k * wz q).
Definition at2 {A} (t : list (list A)) (i j : nat) : res A := row <- get t i ;; get row j.
Definition rat_entry (W S : list (list vec4)) (k l : nat) : res vec4 :=
  a <- at2 W k l ;;
  v <- for_up l 1 (fun j v => c <- binc l j ;; w <- at2 W 0 j ;; s <- at2 S k (l - j) ;; Ok (v3mac v (- (c * ww w)) s)) (xyz_of a) ;;
  v <- for_up k 1 (fun i v =>
    c <- binc k i ;;
    w <- at2 W i 0 ;;
    s <- at2 S (k - i) l ;;
    let v := v3mac v (- (c * ww w)) s in
    v2 <- for_up l 1 (fun j v2 => b <- binc l j ;; w <- at2 W i j ;; s <- at2 S (k - i) (l - j) ;; Ok (v3mac v2 (b * ww w) s)) (V3 0 0 0) ;;
    Ok (V3 (vx v - c * vx v2) (vy v - c * vy v2) (vz v - c * vz v2))) v ;;
  w <- at2 W 0 0 ;;
  x <- qdiv (vx v) (ww w) ;; y <- qdiv (vy v) (ww w) ;; z <- qdiv (vz v) (ww w) ;;
  Ok (V4 x y z 0).
Definition rat_surface_derivs (W : list (list vec4)) (order : nat) : res (list (list vec4)) :=
  let n := (order + 1)%nat in
  for_up n 0 (fun k S => for_up n 0 (fun l S => x <- rat_entry W S k l ;; set2 S k l x) S)
    (repeat (repeat v4zero n) n).
