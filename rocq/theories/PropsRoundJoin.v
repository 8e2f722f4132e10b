(** Assembling polylines in double arithmetic: property C249. *)
From Coq Require Import List ZArith QArith Qcanon.
From Verif Require Import Base ModelVec ModelPolyline ModelRoundCell ModelRoundJoin SpecPolyline SpecRound SpecRoundKd SpecRoundCell SpecRoundJoin ProofRoundJoin WitnessRoundKd WitnessRoundCell WitnessRoundJoin.
Import ListNotations.
Open Scope Qc_scope.

(** C249: whenever the call returns, every segment is used once, consecutive segments
    pass the computed test for closeness, and no two polylines could still be joined *)
Theorem C249_joined_in_doubles :
  forall fl, in_all_doubles fl -> forall root, root_spec root -> forall segs branches r,
  Forall double_segment segs -> fassemble_polylines fl (fnear fl root) segs branches = Ok r ->
  exists outs pts uses, r = branches ++ outs /\
    assembled (fnear fl root) segs outs pts uses /\ cannot_be_joined (fnear fl root) segs pts uses.
Proof. exact fjoin_returns. Qed.
Print Assumptions C249_joined_in_doubles.

(** and it returns if the coordinates divided by eps are within 2147483646 *)
Theorem C249_small_segments_return :
  forall fl, in_all_doubles fl -> forall root, root_spec root -> forall segs branches,
  Forall small_segment segs -> Forall double_segment segs ->
  exists outs pts uses, fassemble_polylines fl (fnear fl root) segs branches = Ok (branches ++ outs) /\
    assembled (fnear fl root) segs outs pts uses /\ cannot_be_joined (fnear fl root) segs pts uses.
Proof. exact fjoin_small. Qed.
Print Assumptions C249_small_segments_return.

(** two segments that meet at a point put in the wrong cell are joined *)
Example C249_segments : Forall double_segment corner /\ Forall small_segment corner.
Proof. exact (conj corner_double corner_small). Qed.
Example C249_case : fassemble_polylines full_never (fnear full_never step_root) corner [] = Ok [[V3 (p2 (-30)) 0 0; V3 0 0 0; V3 0 (p2 (-30)) 0]].
Proof. exact corner_joined. Qed.
Example C249_root : root_spec step_root. Proof. exact step_root_ok. Qed.
