(** Model of cmmcore/polyline.h: assembling polylines from loose segments.
    Coordinates are exact rationals. A pointer to a segment is its position in
    the input vector; a pointer to an endpoint is its position in the endpoint
    vector. A double-to-int cast or int sum that leaves the range of int is UB.
    The test [(a - b).length() < eps] is the oracle [near a b]: [length] goes
    through the single-precision [sqrtf] (vec.h:411-419). *)
From Coq Require Import List ZArith QArith Qcanon Qround Bool.
From Verif Require Import Base ModelVec ModelMemView.
Import ListNotations.
Open Scope Qc_scope.

(** [eps], polyline.h:41: the machine epsilon of double, 2^-52 *)
Definition PL_EPS : Qc := qc 1 4503599627370496.

(** std::floor, and the truncation done by a double-to-int conversion *)
Definition qc_floor (x : Qc) : Z := Qfloor (this x).
Definition qc_trunc (x : Qc) : Z := if x <? 0 then (- qc_floor (- x))%Z else qc_floor x.

(** struct PointKey, polyline.h:44-45, and its equality, 57-59 *)
Definition pkey : Type := Z * Z * Z.
Definition pkey_eqb (a b : pkey) : bool :=
  let '(x, y, z) := a in let '(x', y', z') := b in ((x =? x') && (y =? y') && (z =? z'))%Z.

(** PointKey(const vec3&), polyline.h:50-54 *)
Definition cell_of (c : Qc) : res Z := int_op (qc_floor (c / PL_EPS + qc 1 2)).
Definition key_of (p : vec3) : res pkey :=
  x <- cell_of (vx p) ;; y <- cell_of (vy p) ;; z <- cell_of (vz p) ;; Ok (x, y, z).
(** PointKey(double, double, double), polyline.h:47: casts the raw values *)
Definition raw_key (x y z : Qc) : res pkey :=
  a <- int_op (qc_trunc x) ;; b <- int_op (qc_trunc y) ;; c <- int_op (qc_trunc z) ;; Ok (a, b, c).

(** struct Segment, polyline.h:72-75 *)
Record segment := SEG { sp1 : vec3; sp2 : vec3 }.
(** struct Endpoint, polyline.h:78-82 *)
Record endpoint := EP { ep_point : vec3; ep_seg : nat; ep_p1 : bool }.

(** SpatialIndex, polyline.h:85: a map from keys to endpoint pointers. The order
    of the entries is never observed. *)
Definition sindex : Type := list (pkey * list nat).

(** unordered_map::find *)
Fixpoint ix_find (k : pkey) (ix : sindex) : option (list nat) :=
  match ix with
  | [] => None
  | (k', b) :: t => if pkey_eqb k k' then Some b else ix_find k t
  end.
(** unordered_map::erase(key) *)
Definition ix_erase (k : pkey) (ix : sindex) : sindex := filter (fun e => negb (pkey_eqb k (fst e))) ix.
(** [index[k]] read (an absent key holds the empty vector) and written back *)
Definition ix_at (k : pkey) (ix : sindex) : list nat := match ix_find k ix with Some b => b | None => [] end.
Definition ix_put (k : pkey) (b : list nat) (ix : sindex) : sindex := (k, b) :: ix_erase k ix.

(** add_to_index, polyline.h:88-91 *)
Definition add_to_index (eps : list endpoint) (ix : sindex) (e : nat) : res sindex :=
  ep <- get eps e ;; k <- key_of (ep_point ep) ;; Ok (ix_put k (ix_at k ix ++ [e]) ix).

(** remove_from_index, polyline.h:94-101: builds its key with the constructor
    that casts the raw coordinates *)
Definition remove_from_index (eps : list endpoint) (ix : sindex) (e : nat) : res sindex :=
  ep <- get eps e ;;
  k <- raw_key (vx (ep_point ep)) (vy (ep_point ep)) (vz (ep_point ep)) ;;
  let b := filter (fun e' => negb (Nat.eqb e e')) (ix_at k ix) in
  match b with [] => Ok (ix_erase k ix) | _ => Ok (ix_put k b ix) end.

(** the offsets (dx, dy, dz) in loop order, polyline.h:108-110 *)
Definition offsets : list pkey :=
  flat_map (fun dx => flat_map (fun dy => map (fun dz => (dx, dy, dz)) [-1; 0; 1]%Z) [-1; 0; 1]%Z) [-1; 0; 1]%Z.

(** find_nearby_endpoints, polyline.h:104-120 *)
Definition find_nearby_endpoints (ix : sindex) (p : vec3) : res (list nat) :=
  '(x, y, z) <- key_of p ;;
  ls <- mapM (fun d : pkey =>
          let '(dx, dy, dz) := d in
          a <- int_op (x + dx) ;; b <- int_op (y + dy) ;; c <- int_op (z + dz) ;;
          Ok (ix_at (a, b, c) ix)) offsets ;;
  Ok (concat ls).

(** [ep->is_p1 ? ep->segment->p2 : ep->segment->p1], polyline.h:153,182,214 *)
Definition far_point (segs : list segment) (ep : endpoint) : res vec3 :=
  s <- get segs (ep_seg ep) ;; Ok (if ep_p1 ep then sp2 s else sp1 s).

(** search for the opposite endpoint and its removal, polyline.h:158-167,189-198,221-230 *)
Fixpoint opposite_from (eps : list endpoint) (i : nat) (ep : endpoint) : option nat :=
  match eps with
  | [] => None
  | e :: t => if Nat.eqb (ep_seg e) (ep_seg ep) && negb (Bool.eqb (ep_p1 e) (ep_p1 ep)) then Some i
              else opposite_from t (S i) ep
  end.
Definition drop_endpoints (eps : list endpoint) (ix : sindex) (e : nat) : res sindex :=
  ep <- get eps e ;;
  ix1 <- remove_from_index eps ix e ;;
  match opposite_from eps 0 ep with
  | Some o => remove_from_index eps ix1 o
  | None => Ok ix1
  end.

(** [processed_segments.count(s)], polyline.h:146,177,209 *)
Definition processed (s : nat) (done_ : list nat) : bool := existsb (Nat.eqb s) done_.

Section Assemble.
(** [(a - b).length() < eps], polyline.h:180,212,239 *)
Variable near : vec3 -> vec3 -> bool.
Variable segs : list segment.
Variable eps : list endpoint.

(** the candidate loop, polyline.h:176-181 and 208-213: the first endpoint of an
    unused segment close to [cur] *)
Fixpoint pick (cands : list nat) (done_ : list nat) (cur : vec3) : res (option nat) :=
  match cands with
  | [] => Ok None
  | e :: t =>
      ep <- get eps e ;;
      if processed (ep_seg ep) done_ then pick t done_ cur
      else if near (ep_point ep) cur then Ok (Some e)
      else pick t done_ cur
  end.

(** the state of the extension loop: index, processed_segments, polyline *)
Definition pstate : Type := sindex * list nat * list vec3.

(** one attempt to extend, at the front (polyline.h:174-203) or the back (206-235) *)
Definition extend (front : bool) (st : pstate) : res (bool * pstate) :=
  let '(ix, done_, pl) := st in
  cur <- get pl (if front then 0%nat else (length pl - 1)%nat) ;;
  cands <- find_nearby_endpoints ix cur ;;
  hit <- pick cands done_ cur ;;
  match hit with
  | None => Ok (false, st)
  | Some e =>
      ep <- get eps e ;;
      far <- far_point segs ep ;;
      ix' <- drop_endpoints eps ix e ;;
      Ok (true, (ix', ep_seg ep :: done_, if front then far :: pl else pl ++ [far]))
  end.

(** the while loop, polyline.h:170-236. Running out of fuel is UB; the theorems
    show it does not happen. *)
Fixpoint extend_loop (fuel : nat) (st : pstate) : res pstate :=
  match fuel with
  | O => UB
  | S f =>
      '(a, st1) <- extend true st ;;
      '(b, st2) <- extend false st1 ;;
      if a || b then extend_loop f st2 else Ok st2
  end.

(** polyline.h:238-243: drop the last point of a closed polyline *)
Definition close_polyline (pl : list vec3) : res (list vec3) :=
  a <- get pl 0 ;; b <- get pl (length pl - 1) ;;
  Ok (if near a b then removelast pl else pl).

(** body of the main loop, polyline.h:145-247 *)
Definition assemble_step (e : nat) (st : sindex * list nat * list (list vec3))
  : res (sindex * list nat * list (list vec3)) :=
  let '(ix, done_, br) := st in
  ep <- get eps e ;;
  if processed (ep_seg ep) done_ then Ok st
  else
    far <- far_point segs ep ;;
    ix1 <- drop_endpoints eps ix e ;;
    '(ix2, done2, pl) <- extend_loop (S (length segs)) (ix1, ep_seg ep :: done_, [ep_point ep; far]) ;;
    pl' <- close_polyline pl ;;
    Ok (ix2, done2, br ++ [pl']).
End Assemble.

(** polyline.h:129-132 *)
Fixpoint make_endpoints (i : nat) (segs : list segment) : list endpoint :=
  match segs with
  | [] => []
  | s :: t => EP (sp1 s) i true :: EP (sp2 s) i false :: make_endpoints (S i) t
  end.

(** polyline.h:134-136 *)
Definition build_index (eps : list endpoint) : res sindex :=
  for_up (length eps) 0 (fun e ix => add_to_index eps ix e) [].

(** assemble_polylines, polyline.h:123-250 *)
Definition assemble_polylines (near : vec3 -> vec3 -> bool) (segs : list segment) (branches : list (list vec3))
  : res (list (list vec3)) :=
  let eps := make_endpoints 0 segs in
  ix <- build_index eps ;;
  '(_, _, br) <- for_up (length eps) 0 (assemble_step near segs eps) (ix, [], branches) ;;
  Ok br.
