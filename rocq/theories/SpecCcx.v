(** What curve-curve intersection should deliver. *)
From Coq Require Import List ZArith QArith Qcanon.
From Verif Require Import Base ModelVec ModelAabb ModelNurbs SpecAabb SpecNurbs SpecCurve.
Import ListNotations.
Open Scope Qc_scope.

(** The interval a curve reports covers its knots, as after construction. *)
Definition interval_covers (c : ncurve) : Prop :=
  fst (nc_interval c) <= snd (nc_interval c) /\
  forall x, In x (nc_knots c) -> fst (nc_interval c) <= x /\ x <= snd (nc_interval c).

Definition within_interval (c : ncurve) (t : Qc) : Prop := fst (nc_interval c) <= t /\ t <= snd (nc_interval c).

(** The parameter intervals that arise from [lo, hi] by halving. *)
Inductive halving (lo hi : Qc) : Qc -> Qc -> Prop :=
| halving_whole : halving lo hi lo hi
| halving_left : forall a b, halving lo hi a b -> halving lo hi a ((b - a) * qc 1 2 + a)
| halving_right : forall a b, halving lo hi a b -> halving lo hi ((b - a) * qc 1 2 + a) b.

(** A clamped curve with unit weights, a box around its control points, inner
    knots of multiplicity at most the degree, and halving points that the
    tolerance 1e-12 does not confuse with a knot. *)
Definition bisectable (c : ncurve) : Prop :=
  exists n, good_curve c n /\ (1 <= nc_degree c)%nat /\ unit_weights (nc_cps c) /\ interval_current c /\
    clamped n (nc_degree c) (nc_knots c) /\
    (forall q, In q (nc_cps c) -> inside (nc_aabb c) (xyz q)) /\
    (forall t, knot (nc_knots c) 0 < t -> t < knot (nc_knots c) (n + 1) -> (multiplicity (nc_knots c) t <= nc_degree c)%nat) /\
    (forall a b, halving (knot (nc_knots c) 0) (knot (nc_knots c) (n + 1)) a b ->
       tol12 < (b - a) * qc 1 2 -> separated (nc_knots c) ((b - a) * qc 1 2 + a)).

(** Vectors the program takes to be shorter than [tol] are shorter than [r]. *)
Definition shorter (len : vec3 -> option Qc) (tol r : Qc) : Prop :=
  forall v l, len v = Some l -> l < tol -> v3distSq v (V3 0 0 0) < r * r.

(** The curves come within [r] of one and the same point at these parameters. *)
Definition meet_near (c1 c2 : ncurve) (r s t : Qc) : Prop :=
  exists p q x, evaluate c1 s = Ok p /\ evaluate c2 t = Ok q /\ v3distSq p x < r * r /\ v3distSq q x < r * r.

(** Some pair of the list is within [tol], in both parameters, of parameters at
    which the curves are within [r] of the points at [u1] and [u2]. *)
Definition represented (c1 c2 : ncurve) (tol r : Qc) (out : list (Qc * Qc)) (u1 u2 : Qc) : Prop :=
  exists s t s' t' p q p' q',
    In (s, t) out /\ Qcabs (s - s') <= tol /\ Qcabs (t - t') <= tol /\
    evaluate c1 u1 = Ok p /\ evaluate c1 s' = Ok p' /\ v3distSq p p' < r * r /\
    evaluate c2 u2 = Ok q /\ evaluate c2 t' = Ok q' /\ v3distSq q q' < r * r.

(** The curve meets the point at [u1] of one and [u2] of the other. *)
Definition crossing (c1 c2 : ncurve) (u1 u2 : Qc) : Prop :=
  within_interval c1 u1 /\ within_interval c2 u2 /\ exists p, evaluate c1 u1 = Ok p /\ evaluate c2 u2 = Ok p.

(** A Bezier curve. *)
Definition bezier (c : ncurve) (a b : Qc) : Prop :=
  nc_knots c = repeat a (nc_degree c + 1) ++ repeat b (nc_degree c + 1) /\ a < b /\ nc_interval c = (a, b) /\
  length (nc_cps c) = (nc_degree c + 1)%nat /\ (1 <= nc_degree c <= 8)%nat /\ unit_weights (nc_cps c) /\
  (forall q, In q (nc_cps c) -> inside (nc_aabb c) (xyz q)).

(** However the interval is halved down to the tolerance 1e-12, the ends of the
    part are at least [r] apart. *)
Definition long_parts (c : ncurve) (r : Qc) : Prop :=
  forall a b p q, halving (fst (nc_interval c)) (snd (nc_interval c)) a b -> tol12 < b - a ->
    evaluate c a = Ok p -> evaluate c b = Ok q -> r * r <= v3distSq p q.

(** Vectors not longer than [r] are seen to be shorter than [tol]. *)
Definition recognised (len : vec3 -> option Qc) (tol r : Qc) : Prop :=
  forall v, v3distSq v (V3 0 0 0) <= r * r -> exists l, len v = Some l /\ l < tol.

(** The box is the smallest around the control points, as after construction. *)
Definition tight_box (c : ncurve) : Prop :=
  forall b, (forall q, In q (nc_cps c) -> inside b (xyz q)) -> subbox (nc_aabb c) b.

(** Neighbouring control points differ by at most [d] in every coordinate. *)
Definition control_steps (c : ncurve) (d : Qc) : Prop :=
  forall i ax, (S i < length (nc_cps c))%nat ->
    let p := xyz (nth i (nc_cps c) (V4 0 0 0 0)) in let q := xyz (nth (S i) (nc_cps c) (V4 0 0 0 0)) in
    - d <= coord q ax - coord p ax /\ coord q ax - coord p ax <= d.

(** Shrunk by the factor 2e-12 / [d], a control polygon with such steps spans a
    box whose diagonal is at most [r]. *)
Definition enough (c : ncurve) (step d r : Qc) : Prop :=
  let e := Qc_of_nat (nc_degree c) * step * (qc 2 1 * tol12) in qc 3 1 * (e * e) <= (r * d) * (r * d).

(** The outcome for every sufficiently large amount of fuel. *)
Definition eventually {A} (f : nat -> option (res A)) (r : res A) : Prop := exists n, forall m, (n <= m)%nat -> f m = Some r.
