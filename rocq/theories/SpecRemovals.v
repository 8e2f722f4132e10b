(** Taking a knot out several times: the words of property C239. *)
From Coq Require Import List ZArith QArith Qcanon Bool.
From Verif Require Import Base ModelVec SpecRefine.
Import ListNotations.
Open Scope Qc_scope.

(** the point at [u] of the way from [before] at [lo] to [behind] at [hi] *)
Definition between (lo hi u : Qc) (before behind : vec4) : vec4 :=
  let a := (u - lo) / (hi - lo) in
  let mix c := a * c behind + (1 - a) * c before in
  V4 (mix wx) (mix wy) (mix wz) (mix ww).
