(** Planar polygons in doubles: properties C241 and C242. *)
From Coq Require Import List ZArith QArith Qcanon.
From Verif Require Import Base ModelVec ModelPolygon ModelRound ModelRoundPolygon SpecPolygon SpecRound SpecRoundHull ProofRoundPolygon WitnessPolygon WitnessRoundHull WitnessRoundPolygon.
Import ListNotations.
Open Scope Qc_scope.

(** C241: triangles with whole coordinates below 2^28 that do not meet are said to touch *)
Theorem C241_relationship_refuted :
  exists fl A B, in_doubles fl /\ convex_polygon A /\ convex_polygon B /\ (forall p, In p (A ++ B) -> on_grid 0 28 p) /\ ~ hulls_meet A B /\ fpolygon_relationship fl A B = Ok TOUCH.
Proof. exact near_touch. Qed.
Print Assumptions C241_relationship_refuted.

(** missing: coordinates that are not multiples of 2^e, or 2^25 steps and more away. For the
    others all three answers are right, with fused products and without *)
Theorem C241_relationship_partial :
  forall fl e A B, in_doubles fl -> (-450 <= e <= 450)%Z -> (forall p, In p (A ++ B) -> on_grid e 25 p) -> convex_polygon A -> convex_polygon B ->
  (fpolygon_relationship fl A B = Ok DISTANCE <-> ~ hulls_meet A B) /\
  (fpolygon_relationship fl A B = Ok TOUCH <-> hulls_meet A B /\ exists d, d <> V2 0 0 /\ separates d A B) /\
  (fpolygon_relationship fl A B = Ok INTERSECT <-> hulls_meet A B /\ forall d, d <> V2 0 0 -> ~ separates d A B).
Proof. exact doubles_relationship. Qed.
Print Assumptions C241_relationship_partial.

(** C241: the same for a point in any polygon; the quotient, which is rounded, never changes the answer *)
Theorem C241_point_in_polygon_partial :
  forall fl e P p, in_doubles fl -> (-450 <= e <= 450)%Z -> (forall x, In x P -> on_grid e 25 x) -> on_grid e 25 p -> fpoint_in_polygon fl P p = Ok (point_in_polygon P p).
Proof. exact doubles_pip. Qed.
Print Assumptions C241_point_in_polygon_partial.

(** without rounding the definitions are those of C112 *)
Theorem C241_no_rounding : forall A B, fpolygon_relationship (fun _ => Some) A B = Ok (polygon_relationship A B).
Proof. exact fx_relationship. Qed.
Print Assumptions C241_no_rounding.

Example C241_case : in_doubles never_fused /\ (forall p, In p (sq0 ++ tri3) -> on_grid 0 25 p) /\ (forall p, In p (sq0 ++ sq2) -> on_grid 0 25 p) /\ convex_ccw sq0 /\ convex_ccw sq2 /\ convex_ccw tri3.
Proof. split; [exact doubles_plain|]. split; [apply squares_grid|]. split; [apply squares_grid|]. repeat split; apply sq_facts. Qed.
Example C241_value : fpolygon_relationship never_fused sq0 sq2 = Ok TOUCH /\ fpoint_in_polygon always_fused tri3 (vi 1 1) = Ok false.
Proof. split; vm_compute; reflexivity. Qed.

(** C242: triangles that overlap are said to be separable *)
Theorem C242_separable_refuted :
  exists fl A B, in_doubles fl /\ convex_polygon A /\ convex_polygon B /\ (forall p, In p (A ++ B) -> on_grid 0 29 p) /\ hulls_meet A B /\
    fpolygon_relationship fl A B = Ok DISTANCE /\ fsat2d fl (fun _ _ => true) A B = Ok true.
Proof. exact over_apart. Qed.
Print Assumptions C242_separable_refuted.

(** missing: as above *)
Theorem C242_separable_sound_partial :
  forall fl e keep A B, in_doubles fl -> (-450 <= e <= 450)%Z -> (forall p, In p (A ++ B) -> on_grid e 25 p) ->
  no_repeat A \/ (length A = 1)%nat -> no_repeat B \/ (length B = 1)%nat -> fsat2d fl keep A B = Ok true -> ~ hulls_meet A B.
Proof. exact doubles_sat_sound. Qed.
Print Assumptions C242_separable_sound_partial.

(** C242: on the grid rounding the projections changes no answer *)
Theorem C242_same_partial :
  forall fl e keep A B, in_doubles fl -> (-450 <= e <= 450)%Z -> (forall p, In p (A ++ B) -> on_grid e 25 p) -> fsat2d fl keep A B = sat2d keep A B.
Proof. exact doubles_sat. Qed.
Print Assumptions C242_same_partial.

Theorem C242_no_rounding : forall keep A B, fsat2d (fun _ => Some) keep A B = sat2d keep A B.
Proof. exact fx_sat. Qed.
Print Assumptions C242_no_rounding.

Example C242_case : no_repeat sq0 /\ no_repeat tri3 /\ fsat2d never_fused (fun _ _ => true) sq0 tri3 = Ok true.
Proof. split; [apply sat_case|]. split; [apply sat_case|]. vm_compute. reflexivity. Qed.
