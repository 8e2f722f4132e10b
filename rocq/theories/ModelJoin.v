(** Joining two curves and measuring their length: cmmcore/nurbs.h:341-378 and
    582-651. *)
From Coq Require Import List ZArith QArith Qcanon Bool.
From Verif Require Import Base ModelVec ModelAabb ModelNurbs ModelDerivative ModelNumeric.
Import ListNotations.
Open Scope Qc_scope.

(** a.distance(b) < tol with tol = 1e-10, nurbs.h:595-602. distance is
    vec3::length of the difference (vec.h:267-270), [len]; None is an infinite
    length. *)
Definition near_end (len : vec3 -> option Qc) (a b : vec3) : bool :=
  match len (v3sub a b) with Some l => l <? lit_1em10 | None => false end.

(** join, nurbs.h:582-651. None: the call returns false and leaves [result] as it
    was; Some r: it returns true with r in [result]. *)
Definition nc_join (len : vec3 -> option Qc) (first second : ncurve) : res (option ncurve) :=
  p1 <- nc_is_periodic first ;;
  p2 <- (if p1 : bool then Ok true else nc_is_periodic second) ;;
  if (p2 : bool) then Ok None else
  first_start <- evaluate first (fst (nc_interval first)) ;;
  first_end <- evaluate first (snd (nc_interval first)) ;;
  second_start <- evaluate second (fst (nc_interval second)) ;;
  second_end <- evaluate second (snd (nc_interval second)) ;;
  let start_start := near_end len first_start second_start in
  let start_end := near_end len first_start second_end in
  let end_start := near_end len first_end second_start in
  let end_end := near_end len first_end second_end in
  if negb start_start && negb start_end && negb end_start && negb end_end then Ok None else
  let new_cps :=
    if end_start then nc_cps first ++ nc_cps second
    else if start_start then rev (nc_cps first) ++ nc_cps second
    else if end_end then nc_cps first ++ rev (nc_cps second)
    else rev (nc_cps first) ++ rev (nc_cps second) in
  start_pt <- get new_cps 0 ;;
  end_pt <- get new_cps (length new_cps - 1) ;;
  new_start <- to_vec3 start_pt ;;
  new_end <- to_vec3 end_pt ;;
  r <- nc_make new_cps (nc_degree first) (near_end len new_start new_end) ;;
  Ok (Some (nc_copy r)).

(** ** integrate.h with an integrand that may throw *)

(** adaptiveSimpson, integrate.h:24-49; the record of calls of ModelNumeric is
    dropped. [left_depth] is max_depth - depth. *)
Fixpoint simpson_m (left_depth : nat) (f : Qc -> res Qc) (a b fa fb fm S tol : Qc) (acc : Qc * Qc) : res (Qc * Qc) :=
  let m := qc 1 2 * (a + b) in
  let h := b - a in
  let m1 := qc 1 2 * (a + m) in
  let m2 := qc 1 2 * (m + b) in
  f1 <- f m1 ;;
  f2 <- f m2 ;;
  let S_left := (h / qc 12 1) * (fa + qc 4 1 * f1 + fm) in
  let S_right := (h / qc 12 1) * (fm + qc 4 1 * f2 + fb) in
  let S_total := S_left + S_right in
  let error_estimate := (S_total - S) / qc 15 1 in
  let done := (fst acc + S_total, snd acc + Qcabs error_estimate) in
  match left_depth with
  | O => Ok done
  | Datatypes.S d =>
      if Qcabs error_estimate <? tol then Ok done else
      acc <- simpson_m d f a m fa fm f1 S_left (tol / qc 2 1) acc ;;
      simpson_m d f m b fm fb f2 S_right (tol / qc 2 1) acc
  end.

(** integrate, integrate.h:51-64: the value left in [result] *)
Definition integrate_m (f : Qc -> res Qc) (t0 t1 tol : Qc) (max_depth : nat) : res Qc :=
  fa <- f t0 ;;
  fb <- f t1 ;;
  let m := qc 1 2 * (t0 + t1) in
  fm <- f m ;;
  let h := t1 - t0 in
  let S := (h / qc 6 1) * (fa + qc 4 1 * fm + fb) in
  '(r, _) <- simpson_m max_depth f t0 t1 fa fb fm S tol (0, 0) ;;
  Ok r.

(** find_t1_newton, integrate.h:66-103; None is NAN *)
Fixpoint t1_newton_m (iters : nat) (t0 I : Qc) (f : Qc -> res Qc) (tol : Qc) (max_iter : nat) (t : Qc) : res (option Qc) :=
  match iters with
  | O => Ok (Some t)
  | Datatypes.S k =>
      r <- integrate_m f t0 t tol max_iter ;;
      let Gt := r - I in
      Gp <- f t ;;
      if Qcabs Gp <? lit_1em10 then Ok None else
      let t_new := t - Gt / Gp in
      if Qcabs (t_new - t) <? tol then Ok (Some t_new) else
      t1_newton_m k t0 I f tol max_iter t_new
  end.

(** ** length *)

(** the integrand, nurbs.h:345-349 and 368-371. [length] is vec3::length
    (vec.h:411-419), taken to be finite. *)
Definition nc_speed (length : vec3 -> Qc) (c : ncurve) (t : Qc) : res Qc :=
  der <- nc_derivative c t ;; Ok (length der).

(** CMMCORE_NURBS_INTEGRATION_TOL, nurbs.h:26: 1e-3 as a double *)
Definition lit_1em3 : Qc := qc 1152921504606847 1152921504606846976.

(** length(t0, t1, tol), nurbs.h:341-355; integrate.h:52 has max_depth = 20 *)
Definition nc_length (length : vec3 -> Qc) (c : ncurve) (t0 t1 tol : Qc) : res Qc :=
  integrate_m (nc_speed length c) t0 t1 tol 20.
(** length(t, tol) and length(), nurbs.h:357-363 *)
Definition nc_length_to (length : vec3 -> Qc) (c : ncurve) (t tol : Qc) : res Qc :=
  nc_length length c (fst (nc_interval c)) t tol.
Definition nc_length_all (length : vec3 -> Qc) (c : ncurve) : res Qc :=
  nc_length length c (fst (nc_interval c)) (snd (nc_interval c)) lit_1em3.

(** lengthAt(l, t0, initial_guess, tol), nurbs.h:365-374; integrate.h:67 has
    max_iter = 20, which is also passed on as the depth of the recursion *)
Definition nc_length_at (length : vec3 -> Qc) (c : ncurve) (l t0 initial_guess tol : Qc) : res (option Qc) :=
  t1_newton_m 20 t0 l (nc_speed length c) tol 20 initial_guess.
(** lengthAt(l, tol), nurbs.h:376-378 *)
Definition nc_length_at_all (length : vec3 -> Qc) (c : ncurve) (l tol : Qc) : res (option Qc) :=
  nc_length_at length c l (fst (nc_interval c)) ((fst (nc_interval c) + snd (nc_interval c)) * qc 1 2) tol.
