(** The spatial index of cmmcore/polyline.h once more, with every arithmetic operation
    followed by a rounding. Converting an infinity to int is UB. *)
From Coq Require Import List ZArith QArith Qcanon Bool.
From Verif Require Import Base ModelVec ModelMemView ModelPolyline ModelRoundKd.
Import ListNotations.
Open Scope Qc_scope.

Section Rounded.
Variable fl : nat -> Qc -> option Qc.
(** the conversion to float followed by sqrtf, vec.h:418 *)
Variable root : Qc -> Qc.

(** PointKey(const vec3&), polyline.h:50-54 *)
Definition fcell_of (c : Qc) : res Z :=
  match fl 0 (c / PL_EPS) with
  | None => UB
  | Some s => match fl 0 (s + qc 1 2) with None => UB | Some t => int_op (qc_floor t) end
  end.
Definition fkey_of (p : vec3) : res pkey :=
  x <- fcell_of (vx p) ;; y <- fcell_of (vy p) ;; z <- fcell_of (vz p) ;; Ok (x, y, z).
(** add_to_index, polyline.h:88-91 *)
Definition fadd_to_index (eps : list endpoint) (ix : sindex) (e : nat) : res sindex :=
  ep <- get eps e ;; k <- fkey_of (ep_point ep) ;; Ok (ix_put k (ix_at k ix ++ [e]) ix).
(** polyline.h:134-136 *)
Definition fbuild_index (eps : list endpoint) : res sindex :=
  for_up (length eps) 0 (fun e ix => fadd_to_index eps ix e) [].
(** find_nearby_endpoints, polyline.h:104-120 *)
Definition ffind_nearby_endpoints (ix : sindex) (p : vec3) : res (list nat) :=
  '(x, y, z) <- fkey_of p ;;
  ls <- mapM (fun d : pkey =>
          let '(dx, dy, dz) := d in
          a <- int_op (x + dx) ;; b <- int_op (y + dy) ;; c <- int_op (z + dz) ;;
          Ok (ix_at (a, b, c) ix)) offsets ;;
  Ok (concat ls).
(** [(a - b).length() < eps], polyline.h:180,212,239: the sum of squares under the
    root is that of distanceSq, vec.h:411-419 *)
Definition fnear (a b : vec3) : bool :=
  match fdist_sq3 fl a b with Some s => root s <? PL_EPS | None => false end.
End Rounded.
