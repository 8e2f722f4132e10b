(** The recursive query for pairs of objects in double arithmetic: properties C246 and
    C247. *)
From Coq Require Import List ZArith QArith Qcanon Permutation Lia.
From Verif Require Import Base ModelVec ModelAabb ModelBvh ModelRoundBvh SpecAabb SpecBvh SpecRound SpecRoundKd SpecRoundBvh ProofBvh ProofRoundBvh WitnessRoundKd WitnessRoundBvh.
Import ListNotations.
Open Scope Qc_scope.

(** C246: the pairs reported are those whose common box has a computed volume not
    below 1e-6. What is computed for the boxes of inner nodes loses none of them. *)
Theorem C246_pairs_as_computed :
  forall fl, in_all_doubles fl ->
  forall part1 order1 sort1 part2 order2 sort2,
  partition_spec part1 -> axis_order_spec order1 -> sort_spec sort1 ->
  partition_spec part2 -> axis_order_spec order2 -> sort_spec sort2 ->
  forall objs1 bu1 objs2 bu2,
  Forall (fun o => proper (obox o)) objs1 -> Forall (fun o => proper (obox o)) objs2 ->
  exists t1 t2 hits,
    build_bvh part1 order1 sort1 objs1 bu1 = Some t1 /\ build_bvh part2 order2 sort2 objs2 bu2 = Some t2 /\
    Forall2 holds_pair (fintersect_bvh fl t1 t2) hits /\
    selects (fun p => exists c, common_box (obox (fst p)) (obox (snd p)) c /\ not_below (fvolume fl c))
            (list_prod objs1 objs2) hits.
Proof. exact fbuild_pairs. Qed.
Print Assumptions C246_pairs_as_computed.

(** C247: not every reported pair shares volume: a square sheet of side 2^600, a little
    over 10^180, has area infinity and volume NaN, which is not below 1e-6 *)
Theorem C247_volume_in_doubles_refuted :
  forall fl, in_all_doubles fl -> forall part order sort i j,
  let sheet := Box (V3 0 0 0) (V3 (p2 600) (p2 600) 0) in
  proper sheet /\ overlap_volume sheet sheet 0 /\
  exists t1 t2,
    build_bvh part order sort [Obj i sheet] false = Some t1 /\ build_bvh part order sort [Obj j sheet] false = Some t2 /\
    Forall2 holds_pair (fintersect_bvh fl t1 t2) [(Obj i sheet, Obj j sheet)].
Proof. intros fl FL part order sort i j. exact (conj sheet_proper (conj sheet_overlap (sheets_reported fl FL part order sort i j))). Qed.
Print Assumptions C247_volume_in_doubles_refuted.

(** C247 for common boxes of ordinary size: the threshold is exact up to five
    roundings *)
Theorem C247_volume_up_to_rounding_partial :
  forall fl, in_all_doubles fl ->
  forall part1 order1 sort1 part2 order2 sort2,
  partition_spec part1 -> axis_order_spec order1 -> sort_spec sort1 ->
  partition_spec part2 -> axis_order_spec order2 -> sort_spec sort2 ->
  forall objs1 bu1 objs2 bu2,
  Forall (fun o => proper (obox o)) objs1 -> Forall (fun o => proper (obox o)) objs2 ->
  (forall x y c, In x objs1 -> In y objs2 -> common_box (obox x) (obox y) c -> sized_box c) ->
  exists t1 t2 hits miss,
    build_bvh part1 order1 sort1 objs1 bu1 = Some t1 /\ build_bvh part2 order2 sort2 objs2 bu2 = Some t2 /\
    Forall2 holds_pair (fintersect_bvh fl t1 t2) hits /\
    Permutation (list_prod objs1 objs2) (hits ++ miss) /\
    Forall (fun p => exists v, overlap_volume (obox (fst p)) (obox (snd p)) v /\ lit_1em6 <= (1 + p2 (-53)) ^ 5 * v) hits /\
    Forall (fun p => forall v, overlap_volume (obox (fst p)) (obox (snd p)) v -> (1 - p2 (-53)) ^ 5 * v < lit_1em6) miss.
Proof. exact fbuild_rounding. Qed.
Print Assumptions C247_volume_up_to_rounding_partial.

Example C246_oracles : in_all_doubles full_never /\ partition_spec demo_part /\ axis_order_spec demo_order /\ sort_spec demo_sort.
Proof. exact (conj never_full (conj demo_part_ok (conj demo_order_ok demo_sort_ok))). Qed.
Example C247_sized : sized_box (Box (V3 0 0 1) (V3 (qc 1 3) (qc 2 1) 1)).
Proof. intros []; cbn; unfold sized; [right; split; vm_compute; discriminate..|left; apply Qc_is_canon; reflexivity]. Qed.
