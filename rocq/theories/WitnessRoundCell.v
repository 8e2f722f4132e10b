(** A coordinate that rounding puts in the next cell. *)
From Coq Require Import List ZArith QArith Qcanon Bool Lia Lqa.
From Verif Require Import Base BaseFacts ModelVec ModelPolyline ModelRoundKd ModelRoundCell SpecPolyline SpecRound SpecRoundKd SpecRoundCell ProofRoundDouble.
Import ListNotations.
Open Scope Qc_scope.

(** 0 below 2^-104, 2^-52 from there on *)
Definition step_root (x : Qc) : Qc := if x <? p2 (-104) then 0 else p2 (-52).
Lemma step_root_ok : root_spec step_root.
Proof.
  split; [|reflexivity]. intros x y _ H. unfold step_root. destruct (x <? p2 (-104)) eqn:A, (y <? p2 (-104)) eqn:B; try apply Qcle_refl; [discriminate|]. qcb. exfalso. qc_lra.
Qed.
(** 2^-52 * (1/2 - 2^-54) *)
Definition odd_coordinate : Qc := Qc_of_Z (2 ^ 53 - 1) * p2 (-106).
Lemma odd_cell : a_double odd_coordinate /\ fcell_of full_never odd_coordinate = Ok 1%Z /\ cell_of odd_coordinate = Ok 0%Z.
Proof. split; [|split]; [|vm_compute; reflexivity..]. unfold a_double, round_full. assert (unbounded odd_coordinate = odd_coordinate) as -> by (apply Qc_is_canon; vm_compute; reflexivity). reflexivity. Qed.
Lemma odd_found : match fbuild_index full_never [EP (V3 odd_coordinate 0 0) 0 true] with
  | Ok ix => ffind_nearby_endpoints full_never ix (V3 0 0 0) = Ok [0%nat] | _ => False end /\
  fnear full_never step_root (V3 odd_coordinate 0 0) (V3 0 0 0) = true.
Proof. split; vm_compute; reflexivity. Qed.
