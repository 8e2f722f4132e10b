(** KD-tree properties C20-C22. [nth_elt] is any behaviour of
    std::nth_element that the C++ standard allows; [ops] is any history of
    build / insert calls on a fresh tree. *)
From Coq Require Import List ZArith QArith Qcanon Permutation.
From Verif Require Import Base ModelVec ModelKd SpecKd ProofKd.
Import ListNotations.
Open Scope Qc_scope.

(** C20: rangeSearch returns exactly the stored points inside the closed box,
    each as often as it is stored. *)
Theorem C20_range_search_exact :
  forall nth_elt, nth_element_spec nth_elt ->
  forall ops lower upper, exists s miss,
    kd_run nth_elt kd_init ops = Some s /\
    Permutation (contents [] ops) (kd_rangeSearch s lower upper ++ miss) /\
    Forall (in_box lower upper) (kd_rangeSearch s lower upper) /\
    Forall (fun p => ~ in_box lower upper p) miss.
Proof. exact kd_range_exact. Qed.
Print Assumptions C20_range_search_exact.

(** C21: nearestNeighbor returns a stored point at minimal distance. *)
Theorem C21_nearest_neighbor_optimal :
  forall nth_elt, nth_element_spec nth_elt ->
  forall ops target, contents [] ops <> [] -> exists s best,
    kd_run nth_elt kd_init ops = Some s /\
    kd_nearestNeighbor s target = Ok best /\ In best (contents [] ops) /\
    forall q, In q (contents [] ops) -> dist2 target best <= dist2 target q.
Proof. exact kd_nearest_optimal. Qed.
Print Assumptions C21_nearest_neighbor_optimal.

(** C22: size() counts the stored points, empty() and the exception of
    nearestNeighbor tell whether there are none. *)
Theorem C22_size_empty_throw :
  forall nth_elt, nth_element_spec nth_elt ->
  forall ops, exists s,
    kd_run nth_elt kd_init ops = Some s /\
    kd_size s = length (contents [] ops) /\
    (kd_empty s = true <-> contents [] ops = []) /\
    (forall target, (exists e, kd_nearestNeighbor s target = Throw e) <-> contents [] ops = []).
Proof. exact kd_size_tracks. Qed.
Print Assumptions C22_size_empty_throw.

(** ** The hypotheses are met *)

Example nth_element_exists : nth_element_spec sorting_nth_element.
Proof. exact sorting_nth_element_ok. Qed.

Definition pt (a b c : Z) : vec3 := V3 (qc a 1) (qc b 1) (qc c 1).

(** A history with a build, a rebuild, inserts and ties on every axis. *)
Definition demo_ops : list kdop :=
  [KInsert (pt 9 9 9); KBuild [pt 1 2 3; pt 1 5 0; pt 4 2 2; pt 0 0 0; pt 1 2 3];
   KInsert (pt 1 7 3); KInsert (pt 0 0 0)].

Example demo_range :
  match kd_run sorting_nth_element kd_init demo_ops with
  | Some s => length (kd_rangeSearch s (pt 0 0 0) (pt 1 5 3)) = 5%nat
  | None => False
  end.
Proof. vm_compute. reflexivity. Qed.

Example demo_nearest :
  match kd_run sorting_nth_element kd_init demo_ops with
  | Some s => kd_nearestNeighbor s (pt 4 3 2) = Ok (pt 4 2 2) /\ kd_size s = 7%nat
  | None => False
  end.
Proof. vm_compute. split; reflexivity. Qed.
