(** Views in files. *)
From Coq Require Import List ZArith.
From Verif Require Import Base ModelSerialization ModelMemView SpecMemView.
Import ListNotations.
Local Open Scope Z_scope.

(** the same shape and the same elements *)
Definition same_view (v w : mview (list byte)) : Prop :=
  mshape w = mshape v /\ forall idx, in_range idx (mshape v) -> exists x, mv_at v idx = Ok x /\ mv_at w idx = Ok x.
