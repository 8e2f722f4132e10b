(** Specification vocabulary for the ownership of the memory of views. *)
From Coq Require Import List Arith.
From Verif Require Import ModelOwner.
Import ListNotations.

(** view [v] exists in [s], points to buffer [b], and releases it *)
Definition owns (s : state) (v b : nat) : Prop := nth_error (views s) v = Some (Some (View b true)).
(** view [v] exists in [s] and points to buffer [b] *)
Definition points_to (s : state) (v b : nat) : Prop := exists m, nth_error (views s) v = Some (Some (View b m)).
(** the program has this state after some history *)
Definition reached (s : state) : Prop := exists ops, run ops start = Done s.
(** a history in which a view that releases its memory is never copy-constructed or
    assigned to another view *)
Inductive careful : state -> list op -> Prop :=
| careful_end s : careful s []
| careful_step s o t : (forall v, (o = CopyConstruct v \/ exists w, o = Assign w v) -> forall b, ~ owns s v b) ->
    (forall s', step o s = Done s' -> careful s' t) -> careful s (o :: t).
(** a history in which nothing is assigned to a view that releases its memory *)
Inductive keeps_owners : state -> list op -> Prop :=
| keeps_end s : keeps_owners s []
| keeps_step s o t : (forall v w, o = Assign v w -> forall b, ~ owns s v b) ->
    (forall s', step o s = Done s' -> keeps_owners s' t) -> keeps_owners s (o :: t).
(** a history in which no view that releases its memory is destroyed *)
Inductive no_release : state -> list op -> Prop :=
| none_end s : no_release s []
| none_step s o t : (forall v, o = Destroy v -> forall b, ~ owns s v b) ->
    (forall s', step o s = Done s' -> no_release s' t) -> no_release s (o :: t).
