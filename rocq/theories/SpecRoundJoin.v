(** Segments between points with double coordinates. *)
From Coq Require Import List ZArith QArith Qcanon.
From Verif Require Import Base ModelVec ModelPolyline SpecRound SpecRoundKd SpecRoundCell.
Open Scope Qc_scope.

Definition double_segment (s : segment) : Prop := double_point (sp1 s) /\ double_point (sp2 s).
