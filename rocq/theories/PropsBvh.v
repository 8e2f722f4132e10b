(** Hierarchy properties C27-C33 and C78. [part], [order] and [sort] are any
    behaviours of std::partition and std::sort the standard allows; the flag
    chooses bottom-up construction. *)
From Coq Require Import List ZArith QArith Qcanon Permutation Bool.
From Verif Require Import Base ModelVec ModelAabb SpecAabb ModelBvh SpecBvh ProofBvh.
Import ListNotations.
Open Scope Qc_scope.

(** C27: a built tree holds exactly the given objects, each in a leaf of its
    own. *)
Theorem C27_bvh_stores_each_object_once :
  forall part order sort, partition_spec part -> axis_order_spec order -> sort_spec sort ->
  forall objs bottom_up, exists t,
    build_bvh part order sort objs bottom_up = Some t /\ Permutation objs (objects_of t) /\
    (t = BNull <-> objs = []) /\
    forall bb o l r, node_in t bb o l r ->
      (o = None -> l <> BNull /\ r <> BNull) /\ (o <> None -> l = BNull /\ r = BNull).
Proof. exact build_stores_once. Qed.
Print Assumptions C27_bvh_stores_each_object_once.

(** C28: each node's box is the smallest box containing the objects below. *)
Theorem C28_bvh_boxes_tight :
  forall part order sort, partition_spec part -> axis_order_spec order -> sort_spec sort ->
  forall objs bottom_up, Forall (fun o => proper (obox o) /\ finite_box (obox o)) objs ->
  exists t, build_bvh part order sort objs bottom_up = Some t /\
  forall bb o l r, node_in t bb o l r ->
    (forall x, In x (objects_of (BNode bb o l r)) -> subbox (obox x) bb) /\
    forall c, (forall x, In x (objects_of (BNode bb o l r)) -> subbox (obox x) c) -> subbox bb c.
Proof. exact build_boxes_tight. Qed.
Print Assumptions C28_bvh_boxes_tight.

(** C29: a box query returns exactly the objects that share a point with it. *)
Theorem C29_bvh_query_exact :
  forall part order sort, partition_spec part -> axis_order_spec order -> sort_spec sort ->
  forall objs bottom_up q, Forall (fun o => proper (obox o)) objs -> proper q ->
  exists t, build_bvh part order sort objs bottom_up = Some t /\
  selects (fun o => boxes_meet (obox o) q) objs (traverse_bvh t q).
Proof. exact build_traverse. Qed.
Print Assumptions C29_bvh_query_exact.

(** C30: the iterative pair query terminates and reports exactly the pairs that
    share a point. *)
Theorem C30_bvh_pairs_exact :
  forall part1 order1 sort1 part2 order2 sort2,
  partition_spec part1 -> axis_order_spec order1 -> sort_spec sort1 ->
  partition_spec part2 -> axis_order_spec order2 -> sort_spec sort2 ->
  forall objs1 bu1 objs2 bu2,
  Forall (fun o => proper (obox o)) objs1 -> Forall (fun o => proper (obox o)) objs2 ->
  exists t1 t2 out hits n,
    build_bvh part1 order1 sort1 objs1 bu1 = Some t1 /\ build_bvh part2 order2 sort2 objs2 bu2 = Some t2 /\
    (forall fuel, (n <= fuel)%nat -> intersect_bvh_iterative fuel t1 t2 = Some out) /\
    Forall2 holds_pair out hits /\
    selects (fun p => boxes_meet (obox (fst p)) (obox (snd p))) (list_prod objs1 objs2) hits.
Proof. exact build_pairs_iterative. Qed.
Print Assumptions C30_bvh_pairs_exact.

(** ** Instances *)
Definition ob (i a b c d e f : Z) : obj := Obj i (Box (V3 (qc a 1) (qc b 1) (qc c 1)) (V3 (qc d 1) (qc e 1) (qc f 1))).
Definition demo1 := [ob 1 0 0 0 1 1 1; ob 2 5 0 0 6 1 1; ob 3 0 5 0 1 6 1; ob 4 0 0 0 1 1 1; ob 5 2 2 2 2 2 2].
Definition demo2 := [ob 11 1 0 0 2 1 1; ob 12 5 0 0 6 1 1; ob 13 9 9 9 9 9 9].

Example oracles_exist : partition_spec demo_part /\ axis_order_spec demo_order /\ sort_spec demo_sort.
Proof. exact (conj demo_part_ok (conj demo_order_ok demo_sort_ok)). Qed.
Example demo_proper : Forall (fun o => proper (obox o) /\ finite_box (obox o)) (demo1 ++ demo2).
Proof.
  apply Forall_forall. intros o Ho. cbn in Ho.
  repeat (destruct Ho as [<-|Ho];
    [split; [intros [| |]; vm_compute; discriminate|]; split; intros [| |]; split; vm_compute; discriminate|]).
  destruct Ho.
Qed.
Definition ids (l : list obj) := map oid l.
Example C29_instance :
  match build_bvh demo_part demo_order demo_sort demo1 false, build_bvh demo_part demo_order demo_sort demo1 true with
  | Some t, Some t' => ids (traverse_bvh t (obox (ob 0 1 1 0 2 2 2))) = [1; 4; 5]%Z
                       /\ length (traverse_bvh t' (obox (ob 0 1 1 0 2 2 2))) = 3%nat
  | _, _ => False
  end.
Proof. vm_compute. split; reflexivity. Qed.

(** C31: the recursive pair query misses intersecting pairs. The two unit boxes
    share a face (volume 0). *)
Theorem C31_recursive_pairs_refuted :
  exists part order sort objs1 objs2 t1 t2 x y,
    partition_spec part /\ axis_order_spec order /\ sort_spec sort /\
    Forall (fun o => proper (obox o)) objs1 /\ Forall (fun o => proper (obox o)) objs2 /\
    build_bvh part order sort objs1 false = Some t1 /\ build_bvh part order sort objs2 false = Some t2 /\
    In x objs1 /\ In y objs2 /\ boxes_meet (obox x) (obox y) /\
    intersect_bvh t1 t2 = [].
Proof. exact recursive_misses. Qed.
Print Assumptions C31_recursive_pairs_refuted.

(** What does hold: exactly the pairs sharing at least 1e-6 of volume are
    reported. Missing: pairs sharing a point but less volume. *)
Theorem C31_recursive_pairs_partial :
  forall part1 order1 sort1 part2 order2 sort2,
  partition_spec part1 -> axis_order_spec order1 -> sort_spec sort1 ->
  partition_spec part2 -> axis_order_spec order2 -> sort_spec sort2 ->
  forall objs1 bu1 objs2 bu2,
  Forall (fun o => proper (obox o)) objs1 -> Forall (fun o => proper (obox o)) objs2 ->
  exists t1 t2 hits,
    build_bvh part1 order1 sort1 objs1 bu1 = Some t1 /\ build_bvh part2 order2 sort2 objs2 bu2 = Some t2 /\
    Forall2 holds_pair (intersect_bvh t1 t2) hits /\
    selects (fun p => exists v, overlap_volume (obox (fst p)) (obox (snd p)) v /\ lit_1em6 <= v)
            (list_prod objs1 objs2) hits.
Proof. exact build_pairs_recursive. Qed.
Print Assumptions C31_recursive_pairs_partial.

Example C30_C31_instance :
  match build_bvh demo_part demo_order demo_sort demo1 false, build_bvh demo_part demo_order demo_sort demo2 true with
  | Some t1, Some t2 =>
      match intersect_bvh_iterative 100 t1 t2 with
      | Some out => length out = 3%nat /\ length (intersect_bvh t1 t2) = 1%nat
      | None => False
      end
  | _, _ => False
  end.
Proof. vm_compute. split; reflexivity. Qed.

(** C32: a point query returns exactly the objects whose box contains it. *)
Theorem C32_point_query_exact :
  forall part order sort, partition_spec part -> axis_order_spec order -> sort_spec sort ->
  forall objs bottom_up p, Forall (fun o => proper (obox o)) objs ->
  exists t, build_bvh part order sort objs bottom_up = Some t /\
  selects (fun o => inside (obox o) p) objs (contains_point t p).
Proof. exact build_contains_point. Qed.
Print Assumptions C32_point_query_exact.

(** C33: a copy does not answer like the original; in fact a copy of any tree
    returns nothing for any query. *)
Theorem C33_copy_keeps_objects_refuted :
  exists t q, traverse_bvh (bvh_copy t) q <> traverse_bvh t q /\
  (forall t' q', traverse_bvh (bvh_copy t') q' = []).
Proof. exact copy_loses. Qed.
Print Assumptions C33_copy_keeps_objects_refuted.

(** assigning a leaf keeps the object the target had, so
    the object of the source is not found and the old one still is. *)
Theorem C33_assign_leaf_refuted : exists self other q x y,
  In x (traverse_bvh self q) /\ In y (traverse_bvh other q) /\ x <> y /\
  traverse_bvh (bvh_assign self other) q = [x].
Proof. exact assign_keeps_old. Qed.
Print Assumptions C33_assign_leaf_refuted.

(** assigning a node that holds no object gives a tree that returns nothing. *)
Theorem C33_assign_inner_empty : forall self other, self <> BNull -> other <> BNull -> node_object other = None ->
  forall q, traverse_bvh (bvh_assign self other) q = [].
Proof. exact assign_inner_empty. Qed.
Print Assumptions C33_assign_inner_empty.

(** what a copy does keep: the shape and every box. *)
Theorem C33_copy_boxes_partial : forall t path, box_at (node_at (bvh_copy t) path) = box_at (node_at t path) /\ node_object (node_at (bvh_copy t) path) = None.
Proof. exact copy_shape. Qed.
Print Assumptions C33_copy_boxes_partial.
Theorem C33_assign_boxes_partial : forall self other, self <> BNull -> other <> BNull -> forall path,
  box_at (node_at (bvh_assign self other) path) = box_at (node_at other path) /\
  (path <> [] -> node_object (node_at (bvh_assign self other) path) = None) /\
  node_object (bvh_assign self other) = match node_object other with Some _ => node_object self | None => None end.
Proof. exact assign_shape. Qed.
Print Assumptions C33_assign_boxes_partial.
Example C33_case : let t := BNode (unit_box 0) None (BNode (unit_box 1) None BNull BNull) (BNode (unit_box 2) None BNull BNull) in
  t <> BNull /\ node_object t = None /\ box_at (node_at (bvh_copy t) [false]) = Some (unit_box 1) /\ box_at (node_at (bvh_assign t t) [true]) = Some (unit_box 2).
Proof. cbn. repeat split. discriminate. Qed.

(** C78: setRight replaces the left child. *)
Theorem C78_setRight_refuted :
  exists t child, match bvh_setRight t child with
  | (BNode _ _ l r, _) => l = child /\ r <> child /\ (forall bb o l0 r0, t = BNode bb o l0 r0 -> l0 <> l /\ r0 = r)
  | (BNull, _) => False
  end.
Proof. exact setRight_wrong. Qed.
Print Assumptions C78_setRight_refuted.
