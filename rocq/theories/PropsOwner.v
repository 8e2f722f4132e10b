(** Who releases the memory of views: properties C225-C227. A history is any list of
    operations on any number of views. *)
From Coq Require Import List Arith.
From Verif Require Import ModelOwner SpecOwner ProofOwner WitnessOwner.
Import ListNotations.

(** C225: false; after every history, a view made by copy() that is copied once more
    has its memory freed twice *)
Theorem C225_freed_once_refuted :
  (exists s v b, reached s /\ owns s v b /\ ~ In b (freed s)) /\
  forall s v b, reached s -> owns s v b -> ~ In b (freed s) ->
    run [CopyConstruct v; Destroy v; Destroy (length (views s))] s = BadFree.
Proof. split; [exists owner_state, 1, 1; exact (conj (proj1 owner_reached) (conj (proj1 (proj2 owner_reached)) (proj1 (proj2 (proj2 owner_reached)))))|exact double_free]. Qed.
Print Assumptions C225_freed_once_refuted.

(** true as long as only views that do not release their memory are copied *)
Theorem C225_freed_once_partial : forall ops, careful start ops -> run ops start <> BadFree.
Proof. exact careful_ok. Qed.
Print Assumptions C225_freed_once_partial.

Example C225_case : careful start tidy /\ exists s, run tidy start = Done s /\ (forall v b, ~ points_to s v b) /\ buffers s = [Program; Malloc] /\ freed s = [1].
Proof. exact (conj tidy_careful tidy_end). Qed.

(** C226: false; no history releases what deserialize() allocates, nor what a view
    holds when another one is assigned to it *)
Theorem C226_deserialized_leaks_refuted :
  (exists s, reached s /\ nth_error (buffers s) 0 = Some NewArray) /\
  forall s b, reached s -> nth_error (buffers s) b = Some NewArray -> ~ In b (freed s).
Proof. split; [eexists; split; [exists [Deserialize; Destroy 0]; reflexivity|reflexivity]|exact deserialized_stays]. Qed.
Print Assumptions C226_deserialized_leaks_refuted.

Theorem C226_assignment_leaks_refuted :
  forall s v w b, reached s -> owns s v b -> ~ In b (freed s) -> (forall u, owns s u b -> u = v) -> w <> v ->
  forall ops s', run (Assign v w :: ops) s = Done s' -> ~ In b (freed s').
Proof. exact assign_leaks. Qed.
Print Assumptions C226_assignment_leaks_refuted.

Example C226_assignment_case : reached owner_state /\ owns owner_state 1 1 /\ ~ In 1 (freed owner_state) /\ (forall u, owns owner_state u 1 -> u = 1) /\ points_to owner_state 0 0.
Proof. exact owner_reached. Qed.

(** what copy() allocates is released with the views *)
Theorem C226_copies_released_partial :
  forall ops s, keeps_owners start ops -> run ops start = Done s -> (forall v b, ~ points_to s v b) ->
  forall b, nth_error (buffers s) b = Some Malloc -> In b (freed s).
Proof. exact all_released. Qed.
Print Assumptions C226_copies_released_partial.

Example C226_case : keeps_owners start tidy. Proof. exact tidy_keeps. Qed.

(** C227: false; a slice of a view made by copy() reads freed memory once that view
    is destroyed *)
Theorem C227_readable_refuted :
  (exists s v b, reached s /\ owns s v b /\ ~ In b (freed s)) /\
  forall s v b, reached s -> owns s v b -> ~ In b (freed s) ->
    run [SliceView v; Destroy v; Read (length (views s))] s = DeadRead.
Proof. split; [exists owner_state, 1, 1; exact (conj (proj1 owner_reached) (conj (proj1 (proj2 owner_reached)) (proj1 (proj2 (proj2 owner_reached)))))|exact dangling]. Qed.
Print Assumptions C227_readable_refuted.

Theorem C227_readable_partial : forall ops, no_release start ops -> run ops start <> DeadRead.
Proof. exact no_dead_read. Qed.
Print Assumptions C227_readable_partial.

(** views of memory of the program can always be read *)
Theorem C227_program_memory_partial :
  forall s v b, reached s -> points_to s v b -> nth_error (buffers s) b = Some Program -> step (Read v) s = Done s.
Proof. exact program_readable. Qed.
Print Assumptions C227_program_memory_partial.

Example C227_case : no_release start (firstn 9 tidy) /\ reached owner_state /\ points_to owner_state 0 0 /\ nth_error (buffers owner_state) 0 = Some Program.
Proof. exact (conj tidy_reads (conj (proj1 owner_reached) (conj (proj2 (proj2 (proj2 (proj2 owner_reached)))) eq_refl))). Qed.
