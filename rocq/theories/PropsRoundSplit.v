(** Rounding errors of splitting a curve (C238). *)
From Coq Require Import List ZArith QArith Qcanon.
From Verif Require Import Base ModelVec ModelAabb ModelNurbs ModelRound ModelRoundInsert ModelRoundSplit.
From Verif Require Import SpecAabb SpecNurbs SpecCurve SpecRound SpecRoundInsert SpecRoundSplit.
From Verif Require Import ProofRoundSplit WitnessNurbs WitnessRound WitnessRoundSplit.
Import ListNotations.
Open Scope Qc_scope.

(** C238: split in doubles, the halves run through the points of the curve up to
    2^-44 of the largest coordinate, the left one before the parameter, the right
    one after it, also evaluated in doubles; the boxes hold as well. *)
Theorem C238_split_double :
  forall fl c n t B, in_doubles fl -> good_curve c n -> (1 <= nc_degree c)%nat -> unit_weights (nc_cps c) -> interval_current c ->
  knot (nc_knots c) (nc_degree c) < t -> t < knot (nc_knots c) (n + 1) ->
  clear_of (p2 (-53)) (nc_knots c) t -> (multiplicity (nc_knots c) t <= nc_degree c)%nat -> coords_up_to B (nc_cps c) ->
  match fsplit fl c t with
  | Ok (d1, d2) => traces_nearly fl B d1 c (knot (nc_knots c) (nc_degree c)) t /\ traces_nearly fl B d2 c t (knot (nc_knots c) (n + 1))
  | Throw e => e = ERuntime
  | UB => False
  end.
Proof. exact split_double. Qed.
Print Assumptions C238_split_double.

(** without rounding this is the splitting of C46 *)
Theorem C238_no_rounding : forall c t, fsplit (fun _ => Some) c t = nc_split c t false.
Proof. exact exact_split. Qed.
Print Assumptions C238_no_rounding.

Example C238_instance : good_curve demo 3 /\ (1 <= nc_degree demo)%nat /\ unit_weights (nc_cps demo) /\ interval_current demo /\
  knot (nc_knots demo) (nc_degree demo) < third /\ third < knot (nc_knots demo) (3 + 1) /\ clear_of (p2 (-53)) (nc_knots demo) third /\
  (multiplicity (nc_knots demo) third <= nc_degree demo)%nat /\ coords_up_to (qc 4 1) (nc_cps demo).
Proof. exact split_hyps. Qed.
Example C238_not_exact : exists a b c d, fsplit never_fused demo third = Ok (a, b) /\ nc_split demo third false = Ok (c, d) /\
  wx (nth 0 (nc_cps b) v4zero) <> wx (nth 0 (nc_cps d) v4zero).
Proof. exact split_rounded. Qed.
