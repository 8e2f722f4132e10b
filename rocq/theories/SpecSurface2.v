(** Vocabulary for Bezier patches, continuity and partial derivatives of
    surfaces. *)
From Coq Require Import List ZArith QArith Qcanon.
From Verif Require Import Base ModelVec ModelAabb ModelNurbs ModelSurface SpecAabb SpecNurbs SpecCurve SpecSurface SpecDerivative.
Import ListNotations.
Open Scope Qc_scope.

(** values more than 1e-7 apart, in increasing order *)
Fixpoint gaps7 (x : Qc) (l : list Qc) : Prop :=
  match l with [] => True | y :: t => lit_1em7 < y - x /\ gaps7 y t end.

(** the knots are [a] p+1 times, the interior knots with their
    multiplicities, between 1 and p, and [b] p+1 times *)
Definition knots_are (U : list Qc) (p : nat) (a : Qc) (mids : list (Qc * nat)) (b : Qc) : Prop :=
  U = repeat a (p + 1) ++ runs mids ++ repeat b (p + 1) /\ gaps7 a (map fst mids ++ [b]) /\
  forall t m, In (t, m) mids -> (1 <= m <= p)%nat.

(** [q] is a single Bezier patch and runs through the points of [s] over
    [ulo, uhi] x [vlo, vhi] *)
Definition bezier_patch (q s : nsurf) (ulo uhi vlo vhi : Qc) : Prop :=
  ns_ku q = repeat ulo (ns_du s + 1) ++ repeat uhi (ns_du s + 1) /\
  ns_kv q = repeat vlo (ns_dv s + 1) ++ repeat vhi (ns_dv s + 1) /\
  length (ns_cps q) = (ns_du s + 1)%nat /\ (forall row, In row (ns_cps q) -> length row = (ns_dv s + 1)%nat) /\
  patch_of q s ulo uhi vlo vhi.

(** how far two parameter pairs are apart *)
Definition apart (u v u' v' : Qc) : Qc := Qcabs (u - u') + Qcabs (v - v').

(** no knot lies in (lo, hi] *)
Definition no_knot (U : list Qc) (lo hi : Qc) : Prop := forall k, In k U -> k <= lo \/ hi < k.
