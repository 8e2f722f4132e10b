(** Model of cmmcore/kdtree.h (KDTree3D). Pointers become an inductive tree;
    memory management (deleteKDTree, kdtree.h:153-160) is not modelled. *)
From Coq Require Import List ZArith QArith Qcanon Bool.
From Verif Require Import Base ModelVec.
Import ListNotations.
Open Scope Qc_scope.

(** KDNode, kdtree.h:20-29; [KNull] is nullptr. *)
Inductive kdtree :=
| KNull
| KNode (pt : vec3) (ax : axis) (l r : kdtree).

(** depth % 3, kdtree.h:55, 73 *)
Definition axis_of_depth (d : nat) : axis :=
  match Nat.modulo d 3 with 0%nat => AX | 1%nat => AY | _ => AZ end.

(** What std::nth_element (kdtree.h:60) does to a range, seen from the outside:
    given the axis, the position [mid] and the points, the points before [mid],
    the point at [mid] and the points after it. *)
Definition nth_element := axis -> nat -> list vec3 -> list vec3 * vec3 * list vec3.

Section Build.
Variable nth_elt : nth_element.

(** buildKDTree, kdtree.h:51-67. [fuel] bounds the recursion depth; None means
    out of fuel. *)
Fixpoint buildKDTree (fuel : nat) (pts : list vec3) (depth : nat) : option kdtree :=
  match pts with
  | [] => Some KNull
  | _ =>
      match fuel with
      | O => None
      | S fuel' =>
          let ax := axis_of_depth depth in
          let '(before, m, after) := nth_elt ax (Nat.div2 (length pts)) pts in
          match buildKDTree fuel' before (S depth), buildKDTree fuel' after (S depth) with
          | Some l, Some r => Some (KNode m ax l r)
          | _, _ => None
          end
      end
  end.
End Build.

(** insertRec, kdtree.h:70-86; the member size_ is threaded. *)
Fixpoint insertRec (t : kdtree) (p : vec3) (depth : nat) (size : nat) : kdtree * nat :=
  match t with
  | KNull => (KNode p (axis_of_depth depth) KNull KNull, S size)
  | KNode q ax l r =>
      if coord p ax <? coord q ax then
        let '(l', size') := insertRec l p (S depth) size in (KNode q ax l' r, size')
      else
        let '(r', size') := insertRec r p (S depth) size in (KNode q ax l r', size')
  end.

(** the box test of kdtree.h:94-96 *)
Definition in_range_b (p lower upper : vec3) : bool :=
  (vx lower <=? vx p) && (vx p <=? vx upper) &&
  (vy lower <=? vy p) && (vy p <=? vy upper) &&
  (vz lower <=? vz p) && (vz p <=? vz upper).

(** rangeSearchRec, kdtree.h:89-112; the result vector is threaded. *)
Fixpoint rangeSearchRec (t : kdtree) (lower upper : vec3) (result : list vec3) : list vec3 :=
  match t with
  | KNull => result
  | KNode p ax l r =>
      let r1 := if in_range_b p lower upper then result ++ [p] else result in
      let r2 := if coord lower ax <=? coord p ax then rangeSearchRec l lower upper r1 else r1 in
      if coord p ax <=? coord upper ax then rangeSearchRec r lower upper r2 else r2
  end.

(** nearestNeighborRec, kdtree.h:115-151; (best, bestDistSq) is threaded. *)
Fixpoint nearestNeighborRec (t : kdtree) (target : vec3) (s : vec3 * Qc) : vec3 * Qc :=
  match t with
  | KNull => s
  | KNode p ax l r =>
      let d := v3distSq target p in
      let s1 := if d <? snd s then (p, d) else s in
      let diff := coord target ax - coord p ax in
      if coord target ax <? coord p ax then
        let s2 := nearestNeighborRec l target s1 in
        if diff * diff <? snd s2 then nearestNeighborRec r target s2 else s2
      else
        let s2 := nearestNeighborRec r target s1 in
        if diff * diff <? snd s2 then nearestNeighborRec l target s2 else s2
  end.

(** KDTree members root and size_, kdtree.h:47-48 *)
Record kdstate := Kd { kroot : kdtree; ksize : nat }.

(** KDTree::KDTree, kdtree.h:164 *)
Definition kd_init : kdstate := Kd KNull 0.

(** KDTree::build, kdtree.h:172-176 (fuel = number of points; None cannot
    happen, see the proofs) *)
Definition kd_build (nth_elt : nth_element) (pts : list vec3) : option kdstate :=
  match buildKDTree nth_elt (length pts) pts 0 with
  | Some t => Some (Kd t (length pts))
  | None => None
  end.

(** KDTree::insert, kdtree.h:179-181 *)
Definition kd_insert (s : kdstate) (p : vec3) : kdstate :=
  let '(t, n) := insertRec (kroot s) p 0 (ksize s) in Kd t n.

(** KDTree::rangeSearch, kdtree.h:184-188 *)
Definition kd_rangeSearch (s : kdstate) (lower upper : vec3) : list vec3 :=
  rangeSearchRec (kroot s) lower upper [].

(** KDTree::nearestNeighbor, kdtree.h:191-199 *)
Definition kd_nearestNeighbor (s : kdstate) (target : vec3) : res vec3 :=
  match kroot s with
  | KNull => Throw ERuntime
  | KNode p _ _ _ => Ok (fst (nearestNeighborRec (kroot s) target (p, v3distSq target p)))
  end.

(** KDTree::size, KDTree::empty, kdtree.h:202-209 *)
Definition kd_size (s : kdstate) : nat := ksize s.
Definition kd_empty (s : kdstate) : bool := Nat.eqb (ksize s) 0.

(** Operations of a history and their execution. *)
Inductive kdop := KBuild (pts : list vec3) | KInsert (p : vec3).

Definition kd_step (nth_elt : nth_element) (s : kdstate) (o : kdop) : option kdstate :=
  match o with
  | KBuild pts => kd_build nth_elt pts
  | KInsert p => Some (kd_insert s p)
  end.

Fixpoint kd_run (nth_elt : nth_element) (s : kdstate) (ops : list kdop) : option kdstate :=
  match ops with
  | [] => Some s
  | o :: t => match kd_step nth_elt s o with Some s' => kd_run nth_elt s' t | None => None end
  end.
