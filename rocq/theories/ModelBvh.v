(** Model of cmmcore/bvh.hpp. unique_ptr children become subtrees, Object3D*
    becomes a value carrying the object's id and box. *)
From Coq Require Import List ZArith QArith Qcanon Bool.
From Verif Require Import Base ModelVec ModelAabb.
Import ListNotations.
Open Scope Qc_scope.

(** Object3D, bvh.hpp:85-109. Null pointers in the object vector (UB in the
    code) are not representable. *)
Record obj := Obj { oid : Z; obox : aabb }.

(** BVHNode, bvh.hpp:118-123; [BNull] is an empty unique_ptr. *)
Inductive bvh :=
| BNull
| BNode (bb : aabb) (o : option obj) (l r : bvh).

(** The double literal 1e-6 (bvh.hpp:452). *)
Definition lit_1em6 : Qc := Q2Qc (4722366482869645 # 4722366482869645213696).

(** compute_extents, bvh.hpp:162-165 *)
Definition compute_extents (b : aabb) : vec3 :=
  V3 (vx (bmax b) - vx (bmin b)) (vy (bmax b) - vy (bmin b)) (vz (bmax b) - vz (bmin b)).

(** The loop at bvh.hpp:178-181. *)
Definition total_bounds (objects : list obj) : aabb :=
  fold_left (fun acc o => aabb_merge acc (obox o)) objects aabb_default.

(** std::partition (bvh.hpp:203): what ends up before and after the returned
    iterator. *)
Definition partition_fn := (obj -> bool) -> list obj -> list obj * list obj.
(** std::sort of the three axis numbers (bvh.hpp:195): the resulting order for
    given extents. *)
Definition axis_order := vec3 -> list axis.

(** split into two halves, bvh.hpp:188-190 and 219-221 *)
Definition split_half (objects : list obj) : list obj * list obj :=
  let mid := Nat.div2 (length objects) in (firstn mid objects, skipn mid objects).

Definition is_nil {A} (l : list A) : bool := match l with [] => true | _ => false end.

Section TopDown.
Variable part : partition_fn.
Variable order : axis_order.

(** the loop over axes, bvh.hpp:198-221. [objects] is the vector as permuted by
    the partition calls made so far. *)
Fixpoint split_axes (tb : aabb) (ext : vec3) (axes : list axis) (objects : list obj) : list obj * list obj :=
  match axes with
  | [] => split_half objects
  | ax :: rest =>
      if 0 <? coord ext ax then
        let split_pos := (coord (bmin tb) ax + coord (bmax tb) ax) * qc 1 2 in
        let '(l, r) := part (fun o => coord (bmin (obox o)) ax <? split_pos) objects in
        if negb (is_nil l) && negb (is_nil r) then (l, r)
        else split_axes tb ext rest (l ++ r)
      else split_axes tb ext rest objects
  end.

(** split_objects, bvh.hpp:171-222 *)
Definition split_objects (objects : list obj) : list obj * list obj :=
  if Nat.leb (length objects) 1 then (objects, [])
  else
    let tb := total_bounds objects in
    let ext := compute_extents tb in
    if (vx ext =? 0) && (vy ext =? 0) && (vz ext =? 0) then split_half objects
    else split_axes tb ext (order ext) objects.

Definition node_box (t : bvh) (acc : aabb) : aabb :=
  match t with BNull => acc | BNode bb _ _ _ => aabb_merge acc bb end.

(** build_bvh_top_down, bvh.hpp:241-279. [fuel] bounds the recursion depth,
    None = out of fuel. *)
Fixpoint build_bvh_top_down (fuel : nat) (objects : list obj) : option bvh :=
  match objects with
  | [] => Some BNull
  | [o] => Some (BNode (obox o) (Some o) BNull BNull)
  | o0 :: _ =>
      let '(lo, ro) := split_objects objects in
      if Nat.eqb (length lo) (length objects) || Nat.eqb (length ro) (length objects) then
        Some (BNode (total_bounds objects) (Some o0) BNull BNull)
      else
        match fuel with
        | O => None
        | S fuel' =>
            match build_bvh_top_down fuel' lo, build_bvh_top_down fuel' ro with
            | Some l, Some r => Some (BNode (node_box r (node_box l aabb_default)) None l r)
            | _, _ => None
            end
        end
  end.
End TopDown.

(** BVHLeaf, bvh.hpp:302-315 *)
Record leaf := Leaf { lbox : aabb; lobj : option obj; lnode : bvh }.

(** BVHLeaf(Object3D pointer), bvh.hpp:309-311 *)
Definition leaf_of_obj (o : obj) : leaf := Leaf (obox o) (Some o) (BNode (obox o) (Some o) BNull BNull).

(** find_best_axis, bvh.hpp:318-338 *)
Definition find_best_axis (leaves : list leaf) : axis :=
  let b := fold_left (fun acc l =>
             Box (V3 (Qcmin (vx (bmin acc)) (vx (bmin (lbox l)))) (Qcmin (vy (bmin acc)) (vy (bmin (lbox l)))) (Qcmin (vz (bmin acc)) (vz (bmin (lbox l)))))
                 (V3 (Qcmax (vx (bmax acc)) (vx (bmax (lbox l)))) (Qcmax (vy (bmax acc)) (vy (bmax (lbox l)))) (Qcmax (vz (bmax acc)) (vz (bmax (lbox l))))))
             leaves aabb_default in
  let s := compute_extents b in
  if (vy s <? vx s) && (vz s <? vx s) then AX else if vz s <? vy s then AY else AZ.

(** std::sort (bvh.hpp:347): the order it leaves the leaves in. *)
Definition sort_fn := axis -> list leaf -> list leaf.

(** the pairing loop, bvh.hpp:357-367 *)
Fixpoint pair_up (leaves : list leaf) : list leaf :=
  match leaves with
  | a :: b :: rest =>
      let bb := aabb_merge (lbox a) (lbox b) in
      Leaf bb None (BNode bb None (lnode a) (lnode b)) :: pair_up rest
  | [a] => [a]
  | [] => []
  end.

Section BottomUp.
Variable sort : sort_fn.

(** the while loop, bvh.hpp:345-372 *)
Fixpoint merge_loop (fuel : nat) (leaves : list leaf) : option bvh :=
  match leaves with
  | [] => None
  | [l] => Some (lnode l)
  | _ =>
      match fuel with
      | O => None
      | S fuel' => merge_loop fuel' (pair_up (sort (find_best_axis leaves) leaves))
      end
  end.

(** build_bvh_bottom_up, bvh.hpp:295-373 *)
Definition build_bvh_bottom_up (fuel : nat) (objects : list obj) : option bvh :=
  match objects with
  | [] => Some BNull
  | _ => merge_loop fuel (map leaf_of_obj objects)
  end.
End BottomUp.

(** build_bvh, bvh.hpp:376-383. The fuel given suffices (see the proofs). *)
Definition build_bvh (part : partition_fn) (order : axis_order) (sort : sort_fn)
    (objects : list obj) (use_bottom_up : bool) : option bvh :=
  if use_bottom_up then build_bvh_bottom_up sort (length objects) objects
  else build_bvh_top_down part order (length objects) objects.

(** traverse_bvh, bvh.hpp:485-498; returns what is appended to results. *)
Fixpoint traverse_bvh (t : bvh) (q : aabb) : list obj :=
  match t with
  | BNull => []
  | BNode bb o l r =>
      if aabb_intersects bb q then
        match o with
        | Some x => [x]
        | None => traverse_bvh l q ++ traverse_bvh r q
        end
      else []
  end.

(** contains_point, bvh.hpp:501-506 *)
Definition contains_point (t : bvh) (p : vec3) : list obj := traverse_bvh t (Box p p).

Definition has_obj (o : option obj) : bool := match o with Some _ => true | None => false end.
Definition is_null (t : bvh) : bool := match t with BNull => true | _ => false end.

(** intersect_bvh, bvh.hpp:443-474; returns the node pairs appended to
    intersections, in order. *)
Fixpoint intersect_bvh (t1 : bvh) : bvh -> list (bvh * bvh) :=
  fix inner (t2 : bvh) : list (bvh * bvh) :=
  match t1 with
  | BNull => []
  | BNode bb1 o1 l1 r1 =>
      match t2 with
      | BNull => []
      | BNode bb2 o2 l2 r2 =>
          match aabb_intersection bb1 bb2 with
          | None => []
          | Some c =>
              if aabb_volume c <? lit_1em6 then []
              else if has_obj o1 && has_obj o2 then [(t1, t2)]
              else if is_null l1 && is_null r1 then inner l2 ++ inner r2
              else if is_null l2 && is_null r2 then intersect_bvh l1 t2 ++ intersect_bvh r1 t2
              else intersect_bvh l1 l2 ++ intersect_bvh l1 r2 ++ intersect_bvh r1 l2 ++ intersect_bvh r1 r2
          end
      end
  end.

(** what is pushed for one child pair, if both exist (e.g. bvh.hpp:421-423) *)
Definition push (a b : bvh) (s : list (bvh * bvh)) : list (bvh * bvh) :=
  if is_null a || is_null b then s else (a, b) :: s.

(** intersect_bvh_iterative, bvh.hpp:386-435: the while loop over the stack
    (head = top). None = out of fuel. *)
Fixpoint intersect_loop (fuel : nat) (stack : list (bvh * bvh)) (out : list (bvh * bvh)) : option (list (bvh * bvh)) :=
  match stack with
  | [] => Some out
  | (n1, n2) :: rest =>
      match fuel with
      | O => None
      | S f =>
          match n1, n2 with
          | BNode bb1 o1 l1 r1, BNode bb2 o2 l2 r2 =>
              if negb (aabb_intersects bb1 bb2) then intersect_loop f rest out
              else if has_obj o1 && has_obj o2 then intersect_loop f rest (out ++ [(n1, n2)])
              else if is_null l1 && is_null r1 then
                intersect_loop f (push n1 r2 (push n1 l2 rest)) out
              else if is_null l2 && is_null r2 then
                intersect_loop f (push r1 n2 (push l1 n2 rest)) out
              else
                intersect_loop f (push r1 r2 (push r1 l2 (push l1 r2 (push l1 l2 rest)))) out
          | _, _ => intersect_loop f rest out
          end
      end
  end.

Definition intersect_bvh_iterative (fuel : nat) (t1 t2 : bvh) : option (list (bvh * bvh)) :=
  intersect_loop fuel [(t1, t2)] [].

(** BVHNode(const BVHNode&), bvh.hpp:127-134 *)
Fixpoint bvh_copy (t : bvh) : bvh :=
  match t with
  | BNull => BNull
  | BNode bb _ l r => BNode bb None (bvh_copy l) (bvh_copy r)
  end.

(** BVHNode::operator=, bvh.hpp:141-160 (this <> &other); BNull is not an
    object one can assign to or from. *)
Definition bvh_assign (self other : bvh) : bvh :=
  match self, other with
  | BNode _ so _ _, BNode bb oo l r =>
      BNode bb (match oo with Some _ => so | None => None end) (bvh_copy l) (bvh_copy r)
  | _, _ => self
  end.

(** BVHNode::setLeft / setRight, bvh.hpp:138-139: (node, argument) after the call *)
Definition bvh_setLeft (t : bvh) (arg : bvh) : bvh * bvh :=
  match t with BNull => (BNull, arg) | BNode bb o l r => (BNode bb o arg r, l) end.
Definition bvh_setRight (t : bvh) (arg : bvh) : bvh * bvh :=
  match t with BNull => (BNull, arg) | BNode bb o l r => (BNode bb o arg r, l) end.
