(** Model of the hash keys of vectors (cmmcore/cm_hash.h, vec.h) and of
    cmmcore/boundary_intersection.h: collecting and grouping the points where the
    boundary of one surface meets another surface. The curve-surface intersector
    [csx] and the vector length (which goes through single precision and may be
    infinite) are oracles. *)
From Coq Require Import List ZArith QArith Qcanon Bool.
From Verif Require Import Base ModelVec ModelMemView ModelNurbs ModelSurface ModelPolyline.
Import ListNotations.
Open Scope Qc_scope.

(** CMMCORE_DECIMALS, cm_limits.h:10: numeric_limits<double>::digits10 *)
Definition DECIMALS : Z := 15.
(** quantize, cm_hash.h:19-22 *)
Definition quantize (value : Qc) (decimals : Z) : res Z := int_op (qc_trunc (value * Qc_of_Z decimals)).

(** Vec3Equal, vec.h:506-514 *)
Definition vec3_equal (a b : vec3) : res bool :=
  xa <- quantize (vx a) DECIMALS ;; xb <- quantize (vx b) DECIMALS ;;
  if negb (Z.eqb xa xb) then Ok false else
  ya <- quantize (vy a) DECIMALS ;; yb <- quantize (vy b) DECIMALS ;;
  if negb (Z.eqb ya yb) then Ok false else
  za <- quantize (vz a) DECIMALS ;; zb <- quantize (vz b) DECIMALS ;;
  Ok (Z.eqb za zb).
(** Vec3Hash, vec.h:493-505; [h] is std::hash<int>, whose value the standard
    leaves open *)
Definition vec3_hash (h : Z -> Z) (v : vec3) : res Z :=
  qx <- quantize (vx v) DECIMALS ;; qy <- quantize (vy v) DECIMALS ;; qz <- quantize (vz v) DECIMALS ;;
  Ok (Z.lxor (Z.lxor (w64 (h qx)) (w64 (Z.shiftl (h qy) 1))) (w64 (Z.shiftl (h qz) 2))).
(** PairDoubleHash, PairDoubleEqual, cm_hash.h:26-43: the first number is used twice *)
Definition pair_hash (h : Z -> Z) (p : Qc * Qc) : res Z :=
  qx <- quantize (fst p) DECIMALS ;; qy <- quantize (fst p) DECIMALS ;;
  Ok (Z.lxor (w64 (h qx)) (w64 (Z.shiftl (h qy) 1))).
Definition pair_equal (a b : Qc * Qc) : bool := (fst a =? fst b) && (snd a =? snd b).

(** contains(Vec3Set, vec3), separability.h:289-291. The set is the list of its
    elements. The key is hashed, and every element is compared; a hash table
    compares only those in the bucket of the key. *)
Fixpoint any_equal (s : list vec3) (v : vec3) : res bool :=
  match s with
  | [] => Ok false
  | a :: t => b <- vec3_equal a v ;; if b then Ok true else any_equal t v
  end.
Definition set_contains (s : list vec3) (v : vec3) : res bool :=
  _ <- vec3_hash (fun z => z) v ;; any_equal s v.

(** struct IntersectionPoint, boundary_intersection.h:125-135 *)
Record ipoint := IP {
  ip_point : vec3;
  ip_t : Qc;
  ip_params : Qc * Qc;
  ip_s1 : Qc * Qc;
  ip_s2 : Qc * Qc;
  ip_boundary : Z;
  ip_first : bool;
  ip_interval : (Qc * Qc) * (Qc * Qc)
}.

(** boundary_index_to_params, boundary_intersection.h:183-188 *)
Definition boundary_params (interval : (Qc * Qc) * (Qc * Qc)) (boundary : Z) (param : Qc) : Qc * Qc :=
  if (boundary =? 0)%Z then (fst (fst interval), param)
  else if (boundary =? 1)%Z then (snd (fst interval), param)
  else if (boundary =? 2)%Z then (param, fst (snd interval))
  else (param, snd (snd interval)).

(** the constructor, boundary_intersection.h:137-158 *)
Definition ip_make (point : vec3) (t : Qc) (params : Qc * Qc) (boundary : Z) (first : bool)
  (interval : (Qc * Qc) * (Qc * Qc)) : ipoint :=
  let own := boundary_params interval boundary t in
  IP point t params (if first then own else params) (if first then params else own) boundary first interval.

(** get_start_params, boundary_intersection.h:160-174 *)
Definition get_start_params (p : ipoint) : (Qc * Qc) * (Qc * Qc) :=
  let own := boundary_params (ip_interval p) (ip_boundary p) (ip_t p) in
  if ip_first p then (own, ip_params p) else (ip_params p, own).

(** extract_surface_boundaries, boundary_intersection.h:106-120 *)
Definition free_boundaries (s : nsurf) : res (list ncurve) :=
  a <- free_isocurve s (fst (ns_iu s)) true ;;
  b <- free_isocurve s (snd (ns_iu s)) true ;;
  c <- free_isocurve s (fst (ns_iv s)) false ;;
  d <- free_isocurve s (snd (ns_iv s)) false ;;
  Ok [a; b; c; d].

(** the loop that removes duplicates, boundary_intersection.h:280-297: runs from
    the last point to the first, so the last copy is the one kept. [todo] is what
    is left, last point first; [kept] is what has been kept, in order. *)
Fixpoint unique_from (todo : list ipoint) (seen : list vec3) (kept : list ipoint) : res (list ipoint) :=
  match todo with
  | [] => Ok kept
  | p :: t =>
      b <- set_contains seen (ip_point p) ;;
      if b then unique_from t seen kept else unique_from t (ip_point p :: seen) (p :: kept)
  end.
Definition remove_duplicates (pts : list ipoint) : res (list ipoint) := unique_from (rev pts) [] [].

Section Find.
(** csx, csx.h:222-230: replaces the contents of its result argument *)
Variable csx : ncurve -> nsurf -> Qc -> res (list (vec3 * (Qc * Qc * Qc))).

(** one of the two loops, boundary_intersection.h:245-259 and 262-276 *)
Fixpoint collect (first : bool) (interval : (Qc * Qc) * (Qc * Qc)) (other : nsurf) (tol : Qc)
  (i : Z) (curves : list ncurve) (pts : list ipoint) : res (list ipoint) :=
  match curves with
  | [] => Ok pts
  | c :: t =>
      hits <- csx c other tol ;;
      collect first interval other tol (i + 1) t
        (pts ++ map (fun h => let '(p, (a, b, d)) := h in ip_make p a (b, d) i first interval) hits)
  end.

(** find_boundary_intersections, boundary_intersection.h:230-300 *)
Definition find_boundary_intersections (s1 s2 : nsurf) (pts : list ipoint) (tol : Qc) : res (list ipoint) :=
  b1 <- free_boundaries s1 ;;
  b2 <- free_boundaries s2 ;;
  pts1 <- collect true (ns_iu s1, ns_iv s1) s2 tol 0 b1 pts ;;
  pts2 <- collect false (ns_iu s2, ns_iv s2) s1 tol 0 b2 pts1 ;;
  remove_duplicates pts2.
End Find.

Section Sort.
(** vec3::length, vec.h:411-419; None is a value that is not below infinity *)
Variable len : vec3 -> option Qc.
Variable points : list ipoint.

(** the search for the closest point, boundary_intersection.h:330-342 *)
Fixpoint closest_from (cur : ipoint) (rest : list nat) (best : option (nat * Qc)) : res (option (nat * Qc)) :=
  match rest with
  | [] => Ok best
  | i :: t =>
      c <- get points i ;;
      let better := match len (v3sub (ip_point cur) (ip_point c)), best with
                    | None, _ => best
                    | Some d, None => Some (i, d)
                    | Some d, Some (j, m) => if d <? m then Some (i, d) else Some (j, m)
                    end in
      closest_from cur t better
  end.

(** the inner loop, boundary_intersection.h:328-352. [seq] is never empty. A round
    adds a point and stops at two, so fuel 2 is enough; running out is UB. *)
Fixpoint grow (fuel : nat) (seq : list ipoint) (unassigned : list nat) : res (list ipoint * list nat) :=
  match fuel with
  | O => UB
  | S f =>
      cur <- get seq (length seq - 1) ;;
      best <- closest_from cur unassigned None ;;
      match best with
      | None => Ok (seq, unassigned)
      | Some (j, _) =>
          if Nat.eqb (length seq) 2 then Ok (seq, unassigned)
          else p <- get points j ;;
               grow f (seq ++ [p]) (filter (fun k => negb (Nat.eqb k j)) unassigned)
      end
  end.

(** the outer loop, boundary_intersection.h:320-355; the set is the ascending
    list of its elements. Each round assigns a point; running out of fuel is UB. *)
Fixpoint sort_loop (fuel : nat) (unassigned : list nat) (result : list (list ipoint)) : res (list (list ipoint)) :=
  match unassigned with
  | [] => Ok result
  | i :: rest =>
      match fuel with
      | O => UB
      | S f =>
          p <- get points i ;;
          '(seq, rest') <- grow 2 [p] rest ;;
          sort_loop f rest' (result ++ [seq])
      end
  end.

(** sort_boundary_intersections, boundary_intersection.h:305-358 *)
Definition sort_boundary_intersections (result : list (list ipoint)) : res (list (list ipoint)) :=
  sort_loop (length points) (seq 0 (length points)) result.
End Sort.
