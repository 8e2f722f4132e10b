(** Cases for the statements about the ownership of the memory of views. *)
From Coq Require Import List Arith Bool Lia.
From Verif Require Import ModelOwner SpecOwner ProofOwner.
Import ListNotations.

(** a buffer of the program, a view, a copy of the view object, a copy of the memory, a
    slice of it, an assignment, a read, and all views destroyed *)
Definition tidy : list op :=
  [Allocate; Construct 0; CopyConstruct 0; Copy 0; SliceView 2; Assign 1 3; Read 1; Destroy 1; Destroy 3; Destroy 2; Destroy 0].
Ltac walk := repeat match goal with
  | |- careful _ (_ :: _) => apply careful_step; [intros ? [?|(? & ?)] ? O; try discriminate; match goal with E : _ = _ |- _ => injection E; intros; subst end; unfold owns in O; cbn in O; discriminate|]
  | |- keeps_owners _ (_ :: _) => apply keeps_step; [intros ? ? E ? O; try discriminate; injection E; intros; subst; unfold owns in O; cbn in O; discriminate|]
  | |- no_release _ (_ :: _) => apply none_step; [intros ? E ? O; try discriminate; injection E; intros; subst; unfold owns in O; cbn in O; discriminate|]
  | |- forall s', _ = Done s' -> _ => let H := fresh in intros ? H; cbn in H; injection H as <-
  | |- careful _ [] => constructor
  | |- keeps_owners _ [] => constructor
  | |- no_release _ [] => constructor
  end.
Lemma tidy_careful : careful start tidy. Proof. unfold tidy. walk. Qed.
Lemma tidy_keeps : keeps_owners start tidy. Proof. unfold tidy. walk. Qed.
Lemma tidy_reads : no_release start (firstn 9 tidy). Proof. unfold tidy. cbn [firstn]. walk. Qed.
Lemma tidy_end : exists s, run tidy start = Done s /\ (forall v b, ~ points_to s v b) /\ buffers s = [Program; Malloc] /\ freed s = [1].
Proof.
  eexists. split; [reflexivity|]. split; [|split; reflexivity]. intros v b (m & H). cbn in H. do 5 (destruct v as [|v]; [discriminate H|]). cbn in H. destruct v; discriminate H.
Qed.
Definition owner_state : state := State [Program; Malloc] [] [Some (View 0 false); Some (View 1 true)].
Lemma owner_reached : reached owner_state /\ owns owner_state 1 1 /\ ~ In 1 (freed owner_state) /\ (forall u, owns owner_state u 1 -> u = 1) /\ points_to owner_state 0 0.
Proof.
  split; [exists [Allocate; Construct 0; Copy 0]; reflexivity|]. split; [reflexivity|]. split; [intros []|]. split; [|exists false; reflexivity].
  intros u O. unfold owns in O. destruct u as [|[|u]]; [discriminate O|reflexivity|]. cbn in O. destruct u; discriminate O.
Qed.
