(** The closest point of a segment in double arithmetic: property C250. *)
From Coq Require Import List ZArith QArith Qcanon.
From Verif Require Import Base ModelVec ModelRoundSegm SpecGjk SpecRoundKd SpecRoundCell SpecRoundSegm ProofRoundSegm WitnessRoundKd WitnessRoundSegm.
From Verif Require Import SpecRound.
Open Scope Qc_scope.

(** C250, in full: the computed point of a segment with two different ends is near the
    point of the segment closest to the origin. False: the squared length of a short
    segment is rounded to 0, and the point is not a number. *)
Theorem C250_short_segment_refuted :
  exists a b, double_point a /\ double_point b /\ a <> b /\ fclosest_on_segm full_never a b = NotANumber.
Proof. exact tiny_segment. Qed.
Print Assumptions C250_short_segment_refuted.

(** true up to rounding when both ends are on a grid of 24 bits *)
Theorem C250_closest_on_grid_partial :
  forall fl, in_all_doubles fl -> forall e a b, (-500 <= e <= 450)%Z -> on_grid3 e 24 a -> on_grid3 e 24 b -> a <> b ->
  exists p c, fclosest_on_segm fl a b = Point p /\ SpecGjk.nearest (on_segment a b) origin c /\ near_point a b c p.
Proof. exact fclosest_grid. Qed.
Print Assumptions C250_closest_on_grid_partial.

(** whenever the ends are 2^-500 apart in some coordinate and within 2^500, the point is
    near some point of the segment *)
Theorem C250_near_segment_partial :
  forall fl, in_all_doubles fl -> forall a b, coords_within (p2 500) a -> coords_within (p2 500) b -> distinct_enough a b ->
  exists p, fclosest_on_segm fl a b = Point p /\ near_segment a b p.
Proof. exact fclosest_near. Qed.
Print Assumptions C250_near_segment_partial.

(** where no coordinate begins towards 0, the start itself is returned, if anything *)
Theorem C250_start_partial :
  forall fl, in_all_doubles fl -> forall a b, double_point a -> coords_within (p2 500) a -> coords_within (p2 500) b -> behind_start a b ->
  fclosest_on_segm fl a b = NotANumber \/ fclosest_on_segm fl a b = Point a.
Proof. exact fclosest_start. Qed.
Print Assumptions C250_start_partial.

Example C250_start : double_point (V3 1 (p2 1) 0) /\ coords_within (p2 500) (V3 1 (p2 1) 0) /\ coords_within (p2 500) (V3 (p2 2) (p2 1) (- (1))) /\ behind_start (V3 1 (p2 1) 0) (V3 (p2 2) (p2 1) (- (1))).
Proof. exact start_case. Qed.
Example C250_infinite : fclosest_on_segm full_never (V3 (p2 (-490)) 0 0) (V3 (p2 (-490) - p2 (-540)) 0 0) = Point (V3 (p2 (-490) - p2 (-540)) 0 0).
Proof. exact infinite_quotient. Qed.
Example C250_grid : on_grid3 0 24 (V3 (-(1)) 1 0) /\ on_grid3 0 24 (V3 1 (1 + 1) 1) /\ V3 (-(1)) 1 0 <> V3 1 (1 + 1) 1.
Proof. exact third_grid. Qed.
Example C250_case : fclosest_on_segm full_never (V3 (-(1)) 1 0) (V3 1 (1 + 1) 1) =
  Point (V3 (qc (-3002399751580331) 4503599627370496) (qc 5254199565265579 4503599627370496) (qc 6004799503160661 36028797018963968)).
Proof. exact third_point. Qed.
(** the bound is needed: an end of the segment need not be reached *)
Example C250_end : fclosest_on_segm full_never (V3 1 0 0) (V3 (p2 (-60)) 0 0) = Point (V3 0 0 0).
Proof. exact end_missed. Qed.
Example C250_apart : coords_within (p2 500) (V3 1 0 0) /\ coords_within (p2 500) (V3 (p2 (-60)) 0 0) /\ distinct_enough (V3 1 0 0) (V3 (p2 (-60)) 0 0).
Proof. exact far_apart. Qed.
