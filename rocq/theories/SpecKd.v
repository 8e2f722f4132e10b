(** Specification vocabulary for the KD-tree properties (C20-C22). *)
From Coq Require Import List ZArith QArith Qcanon Permutation.
From Verif Require Import Base ModelVec ModelKd.
Import ListNotations.
Open Scope Qc_scope.

(** The C++ standard's postcondition of
    std::nth_element(begin, begin+mid, end, compare on axis), for mid < size. *)
Definition nth_element_spec (nth_elt : nth_element) : Prop :=
  forall ax mid pts before m after,
    (mid < length pts)%nat -> nth_elt ax mid pts = (before, m, after) ->
    Permutation pts (before ++ m :: after) /\ length before = mid /\
    (forall p, In p before -> coord p ax <= coord m ax) /\
    (forall p, In p after -> coord m ax <= coord p ax).

(** The abstract content after a history: a bag of points. *)
Fixpoint contents (bag : list vec3) (ops : list kdop) : list vec3 :=
  match ops with
  | [] => bag
  | KBuild pts :: t => contents pts t
  | KInsert p :: t => contents (p :: bag) t
  end.

(** The closed box between two corners. *)
Definition in_box (lower upper p : vec3) : Prop :=
  forall a, coord lower a <= coord p a /\ coord p a <= coord upper a.

(** Squared Euclidean distance. *)
Definition dist2 (p q : vec3) : Qc :=
  (vx p - vx q) ^ 2 + (vy p - vy q) ^ 2 + (vz p - vz q) ^ 2.
