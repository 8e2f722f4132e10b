(** The nearest neighbour in double arithmetic: properties C244 and C245. *)
From Coq Require Import List ZArith QArith Qcanon Lia.
From Verif Require Import Base ModelVec ModelKd ModelRoundKd SpecKd SpecRound SpecRoundKd ProofRoundKd WitnessRoundKd.
Import ListNotations.
Open Scope Qc_scope.

(** C245: not the nearest point in the strict sense, for any choice of fused
    products: the second of two points with coordinates up to 2^27 is nearer *)
Theorem C245_nearest_in_doubles_refuted :
  forall fl, in_all_doubles fl -> forall nth_elt, exists s,
  kd_run nth_elt kd_init [KInsert (V3 (Qc_of_Z (2 ^ 27)) 1 0); KInsert (V3 (Qc_of_Z (2 ^ 27)) 0 0)] = Some s /\
  fkd_nearest fl s (V3 0 0 0) = Ok (V3 (Qc_of_Z (2 ^ 27)) 1 0) /\
  dist2 (V3 0 0 0) (V3 (Qc_of_Z (2 ^ 27)) 0 0) < dist2 (V3 0 0 0) (V3 (Qc_of_Z (2 ^ 27)) 1 0).
Proof. intros fl FL nth_elt. destruct (wrong_neighbour fl FL nth_elt) as (s & A & B). exists s. exact (conj A (conj B up_farther)). Qed.
Print Assumptions C245_nearest_in_doubles_refuted.

(** nor is a stored point found by asking for it *)
Theorem C245_stored_point_refuted :
  forall fl, in_all_doubles fl -> forall nth_elt, exists s,
  kd_run nth_elt kd_init [KInsert (V3 (p2 (-600)) 0 0); KInsert (V3 0 0 0)] = Some s /\
  fkd_nearest fl s (V3 0 0 0) = Ok (V3 (p2 (-600)) 0 0) /\ 0 < dist2 (V3 0 0 0) (V3 (p2 (-600)) 0 0) /\ dist2 (V3 0 0 0) (V3 0 0 0) = 0.
Proof. intros fl FL nth_elt. destruct (missed_target fl FL nth_elt) as (s & A & B). exists s. exact (conj A (conj B tiny_far)). Qed.
Print Assumptions C245_stored_point_refuted.

(** C244: the point returned is the nearest by the distances distanceSq computes; no
    rounding in the test that skips a subtree loses it *)
Theorem C244_nearest_as_computed :
  forall fl, in_all_doubles fl -> forall nth_elt, nth_element_spec nth_elt ->
  forall ops target, contents [] ops <> [] -> exists s best,
    kd_run nth_elt kd_init ops = Some s /\
    fkd_nearest fl s target = Ok best /\ In best (contents [] ops) /\
    forall q, In q (contents [] ops) -> ext_le (fdist_sq3 fl target best) (fdist_sq3 fl target q).
Proof. exact fkd_nearest_top. Qed.
Print Assumptions C244_nearest_as_computed.

(** C245 with the rounding errors allowed for *)
Theorem C245_nearest_up_to_rounding_partial :
  forall fl, in_all_doubles fl -> forall nth_elt, nth_element_spec nth_elt ->
  forall ops target, contents [] ops <> [] -> (forall q, In q (contents [] ops) -> moderately_apart target q) ->
  exists s best, kd_run nth_elt kd_init ops = Some s /\ fkd_nearest fl s target = Ok best /\ In best (contents [] ops) /\
    forall q, In q (contents [] ops) -> (1 - p2 (-53)) ^ 5 * dist2 target best <= (1 + p2 (-53)) ^ 5 * dist2 target q.
Proof. exact fkd_relative_top. Qed.
Print Assumptions C245_nearest_up_to_rounding_partial.

(** C245 where there are none *)
Theorem C245_nearest_on_grid_partial :
  forall fl, in_all_doubles fl -> forall nth_elt, nth_element_spec nth_elt ->
  forall e ops target, (-500 <= e <= 450)%Z -> contents [] ops <> [] -> on_grid3 e 24 target -> (forall q, In q (contents [] ops) -> on_grid3 e 24 q) ->
  exists s best, kd_run nth_elt kd_init ops = Some s /\ fkd_nearest fl s target = Ok best /\ In best (contents [] ops) /\
    forall q, In q (contents [] ops) -> dist2 target best <= dist2 target q.
Proof. exact fkd_grid_top. Qed.
Print Assumptions C245_nearest_on_grid_partial.

Example C244_arithmetic : in_all_doubles full_never /\ in_all_doubles full_always.
Proof. exact (conj never_full always_full). Qed.
Example C245_case : on_grid3 (-1) 24 (V3 (Qc_of_Z 7 * p2 (-1)) (Qc_of_Z (-3) * p2 (-1)) (Qc_of_Z 0 * p2 (-1))).
Proof. exists 7%Z, (-3)%Z, 0%Z. cbn [vx vy vz]. repeat split; cbn; lia. Qed.
Example C245_moderate : moderately_apart (V3 0 0 0) (V3 (qc 1 3) 0 (- (1))).
Proof. unfold moderately_apart, moderate. cbn [vx vy vz]. split; [right|split; [left; reflexivity|right]]; split; vm_compute; discriminate. Qed.
