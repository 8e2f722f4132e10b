(** cmmcore/integrate.h, cmmcore/minimize_scalar.h and cmmcore/matrix.h over
    exact rationals. *)
From Coq Require Import List ZArith QArith Qcanon.
From Verif Require Import Base ModelNurbs.
Import ListNotations.
Open Scope Qc_scope.

(** ** integrate.h

    The integrand is a function on Qc: an std::function that has no state and
    does not throw. Every call of it is recorded, in order. *)
Record quad := Quad { q_result : Qc; q_error : Qc; q_calls : list Qc }.

(** adaptiveSimpson, integrate.h:24-49. [left_depth] is max_depth - depth, so
    depth >= max_depth is left_depth = 0. *)
Fixpoint adaptive_simpson (left_depth : nat) (f : Qc -> Qc) (a b fa fb fm S tol : Qc) (acc : quad) : quad :=
  let m := qc 1 2 * (a + b) in
  let h := b - a in
  let m1 := qc 1 2 * (a + m) in
  let m2 := qc 1 2 * (m + b) in
  let f1 := f m1 in
  let f2 := f m2 in
  let S_left := (h / qc 12 1) * (fa + qc 4 1 * f1 + fm) in
  let S_right := (h / qc 12 1) * (fm + qc 4 1 * f2 + fb) in
  let S_total := S_left + S_right in
  let error_estimate := (S_total - S) / qc 15 1 in
  let acc := Quad (q_result acc) (q_error acc) (q_calls acc ++ [m1; m2]) in
  let done := Quad (q_result acc + S_total) (q_error acc + Qcabs error_estimate) (q_calls acc) in
  match left_depth with
  | O => done
  | Datatypes.S d =>
      if Qcabs error_estimate <? tol then done else
      let acc := adaptive_simpson d f a m fa fm f1 S_left (tol / qc 2 1) acc in
      adaptive_simpson d f m b fm fb f2 S_right (tol / qc 2 1) acc
  end.

(** integrate, integrate.h:51-64 *)
Definition integrate (f : Qc -> Qc) (t0 t1 tol : Qc) (max_depth : nat) : quad :=
  let fa := f t0 in
  let fb := f t1 in
  let m := qc 1 2 * (t0 + t1) in
  let fm := f m in
  let h := t1 - t0 in
  let S := (h / qc 6 1) * (fa + qc 4 1 * fm + fb) in
  adaptive_simpson max_depth f t0 t1 fa fb fm S tol (Quad 0 0 [t0; t1; m]).

(** 1e-10 as a double *)
Definition lit_1em10 : Qc := qc 7737125245533627 77371252455336267181195264.

(** find_t1_newton, integrate.h:66-103. None is the NAN returned when the
    derivative is too small; the messages on std::cerr are left out. The loop
    variable is an int compared with a size_t: max_iter below 2^31 is assumed. *)
Fixpoint t1_newton_loop (iters : nat) (t0 I : Qc) (f : Qc -> Qc) (tol : Qc) (max_iter : nat) (t : Qc) : option Qc :=
  match iters with
  | O => Some t
  | Datatypes.S k =>
      let Gt := q_result (integrate f t0 t tol max_iter) - I in
      let Gp := f t in
      if Qcabs Gp <? lit_1em10 then None else
      let t_new := t - Gt / Gp in
      if Qcabs (t_new - t) <? tol then Some t_new else
      t1_newton_loop k t0 I f tol max_iter t_new
  end.
Definition find_t1_newton (t0 I : Qc) (f : Qc -> Qc) (initial_guess tol : Qc) (max_iter : nat) : option Qc :=
  t1_newton_loop max_iter t0 I f tol max_iter initial_guess.

(** ** minimize_scalar.h *)

(** std::sqrt(2.2e-16) and 0.5 * (3.0 - std::sqrt(5.0)) as doubles,
    minimize_scalar.h:63-64 *)
Definition sqrt_eps : Qc := qc 8965633834436897 604462909807314587353088.
Definition golden_mean : Qc := qc 215027748241771 562949953421312.

(** std::copysign(1.0, x): rationals have no signed zero, so the sign of a zero
    is [z], which the theorems leave arbitrary *)
Definition copysign1 (z : bool) (x : Qc) : Qc :=
  if x <? 0 then -(1) else if 0 <? x then 1 else if z then 1 else -(1).

(** the variables of the loop, minimize_scalar.h:66-80; [ms_calls] are the
    arguments func was called with, newest first *)
Record mstate := MS { ms_a : Qc; ms_b : Qc; ms_fulc : Qc; ms_nfc : Qc; ms_xf : Qc; ms_rat : Qc; ms_e : Qc;
  ms_fx : Qc; ms_num : nat; ms_ffulc : Qc; ms_fnfc : Qc; ms_xm : Qc; ms_tol1 : Qc; ms_tol2 : Qc; ms_calls : list Qc }.

(** minimize_scalar.h:66-80 *)
Definition ms_init (f : Qc -> Qc) (x1 x2 xatol : Qc) : mstate :=
  let a := x1 in let b := x2 in
  let fulc := a + golden_mean * (b - a) in
  let fx := f fulc in
  let tol1 := sqrt_eps * Qcabs fulc + xatol / qc 3 1 in
  MS a b fulc fulc fulc 0 0 fx 1 fx fx (qc 1 2 * (a + b)) tol1 (qc 2 1 * tol1) [fulc].

(** the loop condition, minimize_scalar.h:88 *)
Definition ms_continue (s : mstate) : bool := ms_tol2 s - qc 1 2 * (ms_b s - ms_a s) <? Qcabs (ms_xf s - ms_xm s).

(** the choice of rat and e, minimize_scalar.h:89-130; x assigned at 111 is
    overwritten at 133 *)
Definition ms_step (z : bool) (s : mstate) : Qc * Qc :=
  let 'MS a b fulc nfc xf rat e fx _ ffulc fnfc xm tol1 tol2 _ := s in
  let golden : Qc * Qc :=
    let e := if xm <=? xf then a - xf else b - xf in (golden_mean * e, e) in
  if tol1 <? Qcabs e then
    let r := (xf - nfc) * (fx - ffulc) in
    let q := (xf - fulc) * (fx - fnfc) in
    let p := (xf - fulc) * q - (xf - nfc) * r in
    let q := qc 2 1 * (q - r) in
    let p := if 0 <? q then - p else p in
    let q := Qcabs q in
    let r1 := e in
    let e := rat in
    if (Qcabs p <? Qcabs (qc 1 2 * q * r1)) && (q * (a - xf) <? p) && (p <? q * (b - xf)) then
      let rat := p / q in
      let x := xf + rat in
      if (x - a <? tol2) || (b - x <? tol2) then (tol1 * copysign1 z (xm - xf), e) else (rat, e)
    else golden
  else golden.

(** the rest of the body, minimize_scalar.h:132-173 *)
Definition ms_body (f : Qc -> Qc) (xatol : Qc) (z1 z2 : bool) (s : mstate) : mstate :=
  let '(rat, e) := ms_step z1 s in
  let 'MS a b fulc nfc xf _ _ fx num ffulc fnfc _ tol1 _ calls := s in
  let si := copysign1 z2 rat in
  let x := xf + si * Qcmax (Qcabs rat) tol1 in
  let fu := f x in
  let num := Datatypes.S num in
  let '(a, b, fulc, ffulc, nfc, fnfc, xf, fx) :=
    if fu <=? fx then
      let '(a, b) := if xf <=? x then (xf, b) else (a, xf) in
      (a, b, nfc, fnfc, xf, fx, x, fu)
    else
      let '(a, b) := if x <? xf then (x, b) else (a, x) in
      if (fu <=? fnfc) || (nfc =? xf) then (a, b, nfc, fnfc, x, fu, xf, fx)
      else if (fu <=? ffulc) || (fulc =? xf) || (fulc =? nfc) then (a, b, x, fu, nfc, fnfc, xf, fx)
      else (a, b, fulc, ffulc, nfc, fnfc, xf, fx) in
  let xm := qc 1 2 * (a + b) in
  let tol1 := sqrt_eps * Qcabs xf + xatol / qc 3 1 in
  MS a b fulc nfc xf rat e fx num ffulc fnfc xm tol1 (qc 2 1 * tol1) (x :: calls).

(** OptimizeResult, minimize_scalar.h:16-23, without the message *)
Record opt_result := OR { or_fun : Qc; or_x : Qc; or_status : nat; or_success : bool; or_nfev : nat; or_nit : nat }.

(** the while loop, minimize_scalar.h:88-179; every turn adds one to num, so
    maxfun turns are enough. [zs] gives the signs of zeros turn by turn. *)
Fixpoint ms_loop (fuel : nat) (f : Qc -> Qc) (xatol : Qc) (maxfun : Z) (zs : nat -> bool * bool) (s : mstate) : mstate * nat :=
  if negb (ms_continue s) then (s, 0%nat) else
  let s := ms_body f xatol (fst (zs (ms_num s))) (snd (zs (ms_num s))) s in
  if (maxfun <=? Z.of_nat (ms_num s))%Z then (s, 1%nat) else
  match fuel with O => (s, 3%nat) | Datatypes.S k => ms_loop k f xatol maxfun zs s end.

(** minimize_scalar_bounded, minimize_scalar.h:41-210. Bounds are finite and
    nothing is NaN here, so flag 2 does not occur. The second component is the
    list of calls. Flag 3 does not exist in the program: it marks a loop that
    ran out of fuel, which the theorems exclude. *)
Definition minimize_scalar_bounded (f : Qc -> Qc) (x1 x2 xatol : Qc) (maxiter : Z) (zs : nat -> bool * bool)
  : res (opt_result * list Qc) :=
  if x2 <? x1 then Throw EInvalidArgument else
  let '(s, flag) := ms_loop (Z.to_nat maxiter) f xatol maxiter zs (ms_init f x1 x2 xatol) in
  Ok (OR (ms_fx s) (ms_xf s) flag (Nat.eqb flag 0) (ms_num s) (ms_num s), ms_calls s).

(** ** matrix.h: Matrix2x2 *)
Record mat2 := M2 { m00 : Qc; m01 : Qc; m10 : Qc; m11 : Qc }.

(** Matrix2x2(initializer_list), matrix.h:34: the values are not used *)
Definition m2_of_lists (rows : list (list Qc)) : mat2 := M2 0 0 0 0.
(** matrix.h:42-48 *)
Definition m2_make (a b c d : Qc) : mat2 := M2 a b c d.
(** fromDiag and eye, matrix.h:51-65 *)
Definition m2_diag (x y : Qc) : mat2 := M2 x 0 0 y.
Definition m2_eye : mat2 := M2 1 0 0 1.
(** transpose, matrix.h:77-86 *)
Definition m2_transpose (m : mat2) : mat2 := M2 (m00 m) (m10 m) (m01 m) (m11 m).
(** det, matrix.h:89-91 *)
Definition m2_det (m : mat2) : Qc := m00 m * m11 m - m01 m * m10 m.
(** inverse, matrix.h:94-108 *)
Definition m2_inverse (m : mat2) : res mat2 :=
  let d := m2_det m in
  if d =? 0 then Throw ERuntime else
  Ok (M2 (m11 m / d) (- m01 m / d) (- m10 m / d) (m00 m / d)).
(** operator* with a matrix, matrix.h:111-124, the three loops unrolled *)
Definition m2_mul (m o : mat2) : mat2 :=
  M2 (0 + m00 m * m00 o + m01 m * m10 o) (0 + m00 m * m01 o + m01 m * m11 o)
     (0 + m10 m * m00 o + m11 m * m10 o) (0 + m10 m * m01 o + m11 m * m11 o).
(** operator* with a vector, matrix.h:127-135 *)
Definition m2_apply (m : mat2) (v : Qc * Qc) : Qc * Qc :=
  (0 + m00 m * fst v + m01 m * snd v, 0 + m10 m * fst v + m11 m * snd v).
(** solve2x2, matrix.h:140-164; None is false (result untouched) *)
Definition solve2x2 (A : mat2) (b : Qc * Qc) : option (Qc * Qc) :=
  let detA := m2_det A in
  if detA =? 0 then None else
  let A1 := M2 (fst b) (m01 A) (snd b) (m11 A) in
  let A2 := M2 (m00 A) (fst b) (m10 A) (snd b) in
  Some (m2_det A1 / detA, m2_det A2 / detA).

(** ** matrix.h: MatrixD

    data[i * cols + j]; indices in size_t do not wrap as long as the product of
    the sizes fits, which holding the data implies. *)
Record matd := MD { md_data : list Qc; md_rows : nat; md_cols : nat }.
(** matrix.h:174 *)
Definition md_zero (r c : nat) : matd := MD (repeat 0 (r * c)) r c.
(** operator(), matrix.h:176-182 *)
Definition md_get (m : matd) (i j : nat) : res Qc := get (md_data m) (i * md_cols m + j).
Definition md_set (m : matd) (i j : nat) (x : Qc) : res matd :=
  d <- set_nth (md_data m) (i * md_cols m + j) x ;; Ok (MD d (md_rows m) (md_cols m)).

(** operator*, matrix.h:187-200 *)
Definition md_mul (a b : matd) : res matd :=
  if negb (Nat.eqb (md_cols a) (md_rows b)) then Throw ERuntime else
  for_up (md_rows a) 0 (fun i r => for_up (md_cols b) 0 (fun j r => for_up (md_cols a) 0 (fun k r =>
    x <- md_get r i j ;; y <- md_get a i k ;; z <- md_get b k j ;; md_set r i j (x + y * z)) r) r)
    (md_zero (md_rows a) (md_cols b)).

(** transpose, matrix.h:202-210 *)
Definition md_transpose (m : matd) : res matd :=
  for_up (md_rows m) 0 (fun i r => for_up (md_cols m) 0 (fun j r => x <- md_get m i j ;; md_set r j i x) r)
    (md_zero (md_cols m) (md_rows m)).

(** the augmented matrix, matrix.h:216-222 *)
Definition md_augment (m : matd) : res matd :=
  for_up (md_rows m) 0 (fun i r => for_up (md_cols m) 0 (fun j r =>
    x <- md_get m i j ;; r <- md_set r i j x ;; md_set r i (j + md_cols m) (if Nat.eqb i j then 1 else 0)) r)
    (md_zero (md_rows m) (2 * md_cols m)).

(** pivot search, matrix.h:225-230 *)
Definition md_pivot (aug : matd) (rows i : nat) : res nat :=
  for_up (rows - (i + 1)) (i + 1) (fun j pivot =>
    x <- md_get aug j i ;; y <- md_get aug pivot i ;; Ok (if Qcabs y <? Qcabs x then j else pivot)) i.

(** row exchange, matrix.h:231-235 *)
Definition md_swap (aug : matd) (cols i pivot : nat) : res matd :=
  if Nat.eqb pivot i then Ok aug else
  for_up (2 * cols) 0 (fun j r =>
    x <- md_get r i j ;; y <- md_get r pivot j ;; r <- md_set r i j y ;; md_set r pivot j x) aug.

(** row scaling, matrix.h:242-244 *)
Definition md_scale (aug : matd) (cols i : nat) (pv : Qc) : res matd :=
  for_up (2 * cols) 0 (fun j r => x <- md_get r i j ;; y <- qdiv x pv ;; md_set r i j y) aug.

(** elimination, matrix.h:246-253 *)
Definition md_eliminate (aug : matd) (rows cols i : nat) : res matd :=
  for_up rows 0 (fun k r =>
    if Nat.eqb k i then Ok r else
    factor <- md_get r k i ;;
    for_up (2 * cols) 0 (fun j r =>
      x <- md_get r k j ;; y <- md_get r i j ;; md_set r k j (x - factor * y)) r) aug.

(** one turn of the outer loop, matrix.h:224-254 *)
Definition md_turn (rows cols i : nat) (aug : matd) : res matd :=
  pivot <- md_pivot aug rows i ;;
  aug <- md_swap aug cols i pivot ;;
  pv <- md_get aug i i ;;
  if Qcabs pv <? lit_1em10 then Throw ERuntime else
  aug <- md_scale aug cols i pv ;;
  md_eliminate aug rows cols i.

(** inverse, matrix.h:212-263 *)
Definition md_inverse (m : matd) : res matd :=
  if negb (Nat.eqb (md_rows m) (md_cols m)) then Throw ERuntime else
  aug <- md_augment m ;;
  aug <- for_up (md_rows m) 0 (md_turn (md_rows m) (md_cols m)) aug ;;
  for_up (md_rows m) 0 (fun i r => for_up (md_cols m) 0 (fun j r =>
    x <- md_get aug i (j + md_cols m) ;; md_set r i j x) r) (md_zero (md_rows m) (md_cols m)).
