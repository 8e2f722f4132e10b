(** Vocabulary for statements about whole curves. *)
From Coq Require Import List ZArith QArith Qcanon.
From Verif Require Import Base ModelVec ModelAabb ModelNurbs SpecAabb SpecNurbs.
Import ListNotations.
Open Scope Qc_scope.

(** [c] has n + 1 control points, n >= degree, a sorted knot vector of the
    matching length whose last span is not empty, and a degree the library's
    fixed buffers can hold *)
Definition good_curve (c : ncurve) (n : nat) : Prop :=
  length (nc_cps c) = S n /\ valid_knots n (nc_degree c) (nc_knots c) /\ (nc_degree c <= 8)%nat.

(** parameters of the curve *)
Definition in_curve (c : ncurve) (n : nat) (u : Qc) : Prop := in_domain n (nc_degree c) (nc_knots c) u.

(** the interval the curve reports is the range of its knots, which is what
    every constructor and setter establishes *)
Definition interval_current (c : ncurve) : Prop :=
  nc_interval c = (knot (nc_knots c) 0, knot (nc_knots c) (length (nc_knots c) - 1)).

(** [part] is a curve of the same degree, with unit weights, whose domain is
    [lo, hi] and which runs through the same points as [c] there *)
Definition traces (part c : ncurve) (lo hi : Qc) : Prop :=
  exists m, good_curve part m /\ nc_degree part = nc_degree c /\ unit_weights (nc_cps part) /\ interval_current part /\
    knot (nc_knots part) (nc_degree c) = lo /\ knot (nc_knots part) (m + 1) = hi /\
    forall u, lo <= u -> u <= hi ->
      exists pt, evaluate part u = Ok pt /\ evaluate c u = Ok pt /\ inside (nc_aabb part) pt.

(** knot values with their multiplicities, written out *)
Definition runs (l : list (Qc * nat)) : list Qc := flat_map (fun x => repeat (fst x) (snd x)) l.

(** distinct values more than the tolerance apart *)
Fixpoint gaps (x : Qc) (l : list Qc) : Prop :=
  match l with [] => True | y :: t => tol12 < y - x /\ gaps y t end.

(** [pieces] are consecutive Bezier curves: one for each break point in [ks],
    the first starting at [lo], each with degree + 1 control points and end
    knots of full multiplicity, running through the same points as [c] *)
Fixpoint bezier_chain (c : ncurve) (lo : Qc) (ks : list Qc) (pieces : list ncurve) : Prop :=
  match ks, pieces with
  | [], [] => True
  | hi :: ks', q :: ps' =>
      nc_knots q = repeat lo (nc_degree c + 1) ++ repeat hi (nc_degree c + 1) /\
      length (nc_cps q) = (nc_degree c + 1)%nat /\ traces q c lo hi /\ bezier_chain c hi ks' ps'
  | _, _ => False
  end.

