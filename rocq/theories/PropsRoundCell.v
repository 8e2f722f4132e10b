(** Nearby endpoints in double arithmetic: property C248. *)
From Coq Require Import List ZArith QArith Qcanon.
From Verif Require Import Base ModelVec ModelPolyline ModelRoundCell SpecPolyline SpecRound SpecRoundKd SpecRoundCell ProofRoundCell WitnessRoundKd WitnessRoundCell.
Import ListNotations.
Open Scope Qc_scope.

(** C248: an endpoint the test for closeness would accept is among the candidates,
    whatever is rounded in its cell, in that of the point and in the test *)
Theorem C248_near_endpoint_found :
  forall fl, in_all_doubles fl -> forall root, root_spec root ->
  forall eps ix p l, Forall (fun ep => double_point (ep_point ep)) eps -> double_point p ->
  fbuild_index fl eps = Ok ix -> ffind_nearby_endpoints fl ix p = Ok l ->
  forall e ep, nth_error eps e = Some ep -> fnear fl root (ep_point ep) p = true -> In e l.
Proof. exact findex_finds. Qed.
Print Assumptions C248_near_endpoint_found.

(** the test as computed accepts only points whose coordinates differ by less than
    eps, which is what C132 asks of it *)
Theorem C248_test_is_sound :
  forall fl, in_all_doubles fl -> forall root, root_spec root -> near_sound (fnear fl root).
Proof. exact fnear_sound. Qed.
Print Assumptions C248_test_is_sound.

Example C248_root : root_spec step_root. Proof. exact step_root_ok. Qed.
(** eps times the double before 1/2 is put in cell 1, though it belongs in cell 0 *)
Example C248_cell : a_double odd_coordinate /\ fcell_of full_never odd_coordinate = Ok 1%Z /\ cell_of odd_coordinate = Ok 0%Z.
Proof. exact odd_cell. Qed.
(** it is close to the origin, and found there *)
Example C248_case : match fbuild_index full_never [EP (V3 odd_coordinate 0 0) 0 true] with
  | Ok ix => ffind_nearby_endpoints full_never ix (V3 0 0 0) = Ok [0%nat] | _ => False end /\
  fnear full_never step_root (V3 odd_coordinate 0 0) (V3 0 0 0) = true.
Proof. exact odd_found. Qed.
