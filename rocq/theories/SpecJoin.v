(** Vocabulary for statements about polygons, joined curves and lengths. *)
From Coq Require Import List ZArith QArith Qcanon.
From Verif Require Import Base ModelVec ModelNurbs SpecNurbs SpecCurve SpecDerivative.
Import ListNotations.
Open Scope Qc_scope.

(** the point at fraction [s] of the way from [a] to [b] *)
Definition lerp3 (a b : vec3) (s : Qc) : vec3 :=
  V3 ((1 - s) * vx a + s * vx b) ((1 - s) * vy a + s * vy b) ((1 - s) * vz a + s * vz b).
Definition on_segment (a b p : vec3) : Prop := exists s, 0 <= s /\ s <= 1 /\ p = lerp3 a b s.

(** [p] is on one of the segments between consecutive points of the list *)
Fixpoint on_polygon (l : list vec3) (p : vec3) : Prop :=
  match l with
  | a :: (b :: _) as t => on_segment a b p \/ on_polygon t p
  | _ => False
  end.

(** the points a curve runs through *)
Definition traced (c : ncurve) (n : nat) (p : vec3) : Prop := exists t, in_curve c n t /\ evaluate c t = Ok p.

(** no knot inside the domain is repeated, nor are the ends of the domain *)
Definition simple_knots (n p : nat) (U : list Qc) : Prop :=
  forall i, (p <= i)%nat -> (i <= n)%nat -> knot U i < knot U (i + 1).

(** first and last control point, as points *)
Definition first_point (c : ncurve) : vec3 := xyz (nth 0 (nc_cps c) (V4 0 0 0 0)).
Definition last_point (c : ncurve) : vec3 := xyz (last (nc_cps c) (V4 0 0 0 0)).
(** the two ends, in one order or the other *)
Definition ends (c : ncurve) (far near : vec3) : Prop :=
  (far = first_point c /\ near = last_point c) \/ (far = last_point c /\ near = first_point c).

(** the last [p] control points repeat the first [p] *)
Definition wraps (c : ncurve) : Prop :=
  forall j, (j < nc_degree c)%nat ->
    nth j (nc_cps c) (V4 0 0 0 0) = nth (length (nc_cps c) - nc_degree c + j) (nc_cps c) (V4 0 0 0 0).

(** closer than 1e-10 (as a double), by a distance function that may overflow *)
Definition touching (len : vec3 -> option Qc) (a b : vec3) : Prop :=
  exists l, len (v3sub a b) = Some l /\ l < Q2Qc (7737125245533627 # 77371252455336267181195264).

(** the curve is at velocity [v] at [t] or, at a knot where the velocity jumps,
    leaves it with velocity [v]; at the end of the curve it arrives with [v] *)
Definition velocity_at (c : ncurve) (n : nat) (t : Qc) (v : vec3) : Prop :=
  has_velocity (evaluate c) (fun t' => in_curve c n t' /\ (t <= t' \/ knot (nc_knots c) (n + 1) <= t)) t v.

(** [length] gives the exact length of every vector that has a rational one *)
Definition exact_length (length : vec3 -> Qc) : Prop :=
  forall v l, 0 <= l -> l * l = v3sq v -> length v = l.

(** a control point with its coordinates divided by its weight *)
Definition divided (q : vec4) : vec3 := V3 (wx q / ww q) (wy q / ww q) (wz q / ww q).

(** a curve whose ends are control points: end knots of full multiplicity,
    positive weights, and the reported interval up to date *)
Definition open_curve (c : ncurve) (n : nat) : Prop :=
  good_curve c n /\ clamped n (nc_degree c) (nc_knots c) /\
  knot (nc_knots c) (nc_degree c) < knot (nc_knots c) (nc_degree c + 1) /\
  positive_weights (nc_cps c) /\ interval_current c.

(** [l] is the list [P] or [P] backwards *)
Definition either_way {A} (l P : list A) : Prop := l = P \/ l = rev P.
