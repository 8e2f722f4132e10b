(** Specification vocabulary for the hierarchy properties C27-C33, C78. *)
From Coq Require Import List ZArith QArith Qcanon Permutation.
From Verif Require Import Base ModelVec ModelAabb SpecAabb ModelBvh.
Import ListNotations.
Open Scope Qc_scope.

(** What the C++ standard guarantees about std::partition and std::sort. *)
Definition partition_spec (part : partition_fn) : Prop :=
  forall p l a b, part p l = (a, b) ->
    Permutation l (a ++ b) /\ (forall x, In x a -> p x = true) /\ (forall x, In x b -> p x = false).

Definition axis_order_spec (order : axis_order) : Prop :=
  forall ext, Permutation [AX; AY; AZ] (order ext) /\
    forall i j a b, (i < j)%nat -> nth_error (order ext) i = Some a -> nth_error (order ext) j = Some b ->
      coord ext b <= coord ext a.

Definition sort_spec (sort : sort_fn) : Prop :=
  forall ax l, Permutation l (sort ax l) /\
    forall i j a b, (i < j)%nat -> nth_error (sort ax l) i = Some a -> nth_error (sort ax l) j = Some b ->
      coord (bmin (lbox a)) ax <= coord (bmin (lbox b)) ax.

(** All objects reachable from a node. *)
Fixpoint objects_of (t : bvh) : list obj :=
  match t with
  | BNull => []
  | BNode _ o l r => (match o with Some x => [x] | None => [] end) ++ objects_of l ++ objects_of r
  end.

(** [node_in t bb o l r]: t has a node with these members. *)
Inductive node_in : bvh -> aabb -> option obj -> bvh -> bvh -> Prop :=
| ni_here bb o l r : node_in (BNode bb o l r) bb o l r
| ni_left bb o l r bb' o' l' r' : node_in l bb' o' l' r' -> node_in (BNode bb o l r) bb' o' l' r'
| ni_right bb o l r bb' o' l' r' : node_in r bb' o' l' r' -> node_in (BNode bb o l r) bb' o' l' r'.

(** The two boxes share a point. *)
Definition boxes_meet (a b : aabb) : Prop := exists p, inside a p /\ inside b p.

(** The two boxes share a box of volume v. *)
Definition overlap_volume (a b : aabb) (v : Qc) : Prop :=
  exists c, proper c /\ (forall p, inside c p <-> inside a p /\ inside b p) /\ aabb_volume c = v.

(** [selects P all hits]: hits is exactly the sub-multiset of all satisfying P. *)
Definition selects {A} (P : A -> Prop) (all hits : list A) : Prop :=
  exists miss, Permutation all (hits ++ miss) /\ Forall P hits /\ Forall (fun x => ~ P x) miss.

(** The object a node holds. *)
Definition node_object (t : bvh) : option obj :=
  match t with BNull => None | BNode _ o _ _ => o end.
(** Each reported node pair holds the corresponding pair of objects. *)
Definition holds_pair (n : bvh * bvh) (p : obj * obj) : Prop :=
  node_object (fst n) = Some (fst p) /\ node_object (snd n) = Some (snd p).

(** The node reached from t by going left (false) or right (true) at each step. *)
Fixpoint node_at (t : bvh) (path : list bool) : bvh :=
  match path, t with
  | [], _ => t
  | _, BNull => BNull
  | b :: rest, BNode _ _ l r => node_at (if b then r else l) rest
  end.
(** The box of a node; none for an empty pointer. *)
Definition box_at (t : bvh) : option aabb :=
  match t with BNull => None | BNode bb _ _ _ => Some bb end.
