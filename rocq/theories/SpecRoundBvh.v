(** The pairs of objects C246 and C247 speak about. *)
From Coq Require Import List ZArith QArith Qcanon.
From Verif Require Import Base ModelVec ModelAabb ModelBvh ModelRoundBvh SpecAabb SpecBvh SpecRound.
Open Scope Qc_scope.

(** c is the set of the points of both boxes *)
Definition common_box (a b c : aabb) : Prop := proper c /\ forall p, inside c p <-> inside a p /\ inside b p.
(** the computed volume is not below 1e-6; neither infinity nor NaN is *)
Definition not_below (v : dnum) : Prop := match v with Num x => lit_1em6 <= x | Infinite => True | NaN => True end.
(** flat, or neither very thin nor very long *)
Definition sized (d : Qc) : Prop := d = 0 \/ (p2 (-300) <= d /\ d <= p2 300).
Definition sized_box (b : aabb) : Prop := forall ax, sized (coord (bmax b) ax - coord (bmin b) ax).
