(** Specification vocabulary for text output (C230, C231). *)
From Coq Require Import Ascii String List ZArith QArith Qcanon Bool.
From Verif Require Import Base ModelVec ModelAabb.
Import ListNotations.
Local Open Scope string_scope.

(** The characters that structure the output. *)
Definition special (c : ascii) : bool := (c =? ",")%char || (c =? "[")%char || (c =? "]")%char.
(** A text without them. *)
Fixpoint plain (s : string) : Prop :=
  match s with EmptyString => True | String c r => special c = false /\ plain r end.
(** A way of writing numbers without brackets and commas: every locale whose
    decimal separator is not a comma. *)
Definition plain_numbers (num : Qc -> string) : Prop := forall x, plain (num x).

(** The written numbers of a vector and of a box. *)
Definition coords_text (fx : Qc -> string) (v : vec3) : list string := [fx (vx v); fx (vy v); fx (vz v)].
Definition box_text (fx : Qc -> string) (b : aabb) : list string :=
  coords_text fx (bmin b) ++ coords_text fx (bmax b).

