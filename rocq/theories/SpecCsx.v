(** Vocabulary for statements about curve-surface intersection. *)
From Coq Require Import List ZArith QArith Qcanon.
From Verif Require Import Base ModelVec ModelAabb ModelNurbs ModelSurface ModelCsx SpecNurbs SpecCurve SpecSurface SpecCcx SpecGjk.
Import ListNotations.
Open Scope Qc_scope.

Definition within (iv : Qc * Qc) (x : Qc) : Prop := fst iv <= x /\ x <= snd iv.

(** what a hit says: its parameters lie in the curve's and the surface's
    intervals, its point is the curve's point there, and the surface's point
    there is at most [r] away *)
Definition true_hit (r : Qc) (c : ncurve) (s : nsurf) (h : csx_int) : Prop :=
  let '(_, p, (t, u, v)) := h in
  within (nc_interval c) t /\ within (ns_iu s) u /\ within (ns_iv s) v /\
  evaluate c t = Ok p /\ exists q, ns_evaluate s u v = Ok q /\ v3distSq p q <= r * r.

(** vectors the program measures as at most [tol] long are at most [r] long *)
Definition at_most (len : vec3 -> option Qc) (tol r : Qc) : Prop :=
  forall a b l, len (v3sub a b) = Some l -> l <= tol -> v3distSq a b <= r * r.

(** where an interval may be cut: in the middle or at an answer of the solver *)
Definition cut_at (answer : Qc -> Prop) (lo hi t : Qc) : Prop :=
  lo < t /\ t < hi /\ (t = (lo + hi) * qc 1 2 \/ answer t).
(** the intervals that cutting leads to *)
Inductive cut_down (answer : Qc -> Prop) (a b : Qc) : Qc -> Qc -> Prop :=
| cut_none : cut_down answer a b a b
| cut_left : forall lo hi t, cut_down answer a b lo hi -> cut_at answer lo hi t -> cut_down answer a b lo t
| cut_right : forall lo hi t, cut_down answer a b lo hi -> cut_at answer lo hi t -> cut_down answer a b t hi.

(** a clamped knot vector with inner knots of multiplicity at most the degree, and
    no cut that comes within 1e-12 of an inner knot without hitting it *)
Definition cuttable_knots (answer : Qc -> Prop) (n p : nat) (U : list Qc) : Prop :=
  let a := knot U 0 in let b := knot U (n + 1) in
  clamped n p U /\ (1 <= p)%nat /\
  (forall t, a < t -> t < b -> (multiplicity U t <= p)%nat) /\
  (forall lo hi t k, cut_down answer a b lo hi -> cut_at answer lo hi t -> In k U -> lo < k -> k < hi ->
     k = t \/ tol12 < k - t \/ tol12 < t - k).

Definition cuttable_curve (answer : Qc -> Prop) (c : ncurve) : Prop :=
  exists n, good_curve c n /\ unit_weights (nc_cps c) /\ interval_current c /\
    cuttable_knots answer n (nc_degree c) (nc_knots c).
Definition cuttable_surf (answer_u answer_v : Qc -> Prop) (s : nsurf) : Prop :=
  exists n m, good_surf s n m /\ positive_surf s /\ intervals_current s /\
    cuttable_knots answer_u n (ns_du s) (ns_ku s) /\ cuttable_knots answer_v m (ns_dv s) (ns_kv s).

(** the parameters the solver may give *)
Definition answers_t (newton : ncurve -> nsurf -> res params) (t : Qc) : Prop := exists c s u v, newton c s = Ok (t, u, v).
Definition answers_u (newton : ncurve -> nsurf -> res params) (u : Qc) : Prop := exists c s t v, newton c s = Ok (t, u, v).
Definition answers_v (newton : ncurve -> nsurf -> res params) (v : Qc) : Prop := exists c s t u, newton c s = Ok (t, u, v).

(** the oracles answer, whatever they are asked *)
Definition answers3 (newton : ncurve -> nsurf -> res params) : Prop := forall c s, exists p, newton c s = Ok p.
Definition answering {A B C} (f : A -> B -> C -> res bool) : Prop := forall a b c, exists x, f a b c = Ok x.
(** a test that answers for sets with points in them *)
Definition answers_sets (f : list vec3 -> list vec3 -> res bool) : Prop := forall A B, A <> [] -> B <> [] -> exists x, f A B = Ok x.

(** the curve and the surface meet there *)
Definition crosses_at (c : ncurve) (s : nsurf) (t u v : Qc) (p : vec3) : Prop :=
  within (nc_interval c) t /\ within (ns_iu s) u /\ within (ns_iv s) v /\ evaluate c t = Ok p /\ ns_evaluate s u v = Ok p.

(** a GJK test that does not take meeting hulls for distant ones *)
Definition exact_apart (apart : list vec3 -> list vec3 -> res bool) : Prop := forall A B, hulls_meet3 A B -> apart A B = Ok false.
(** a separability test that recognises hulls with at most the given point in common *)
Definition meet_only_at (p : vec3) (A B : list vec3) : Prop := forall x, in_hull3 A x -> in_hull3 B x -> x = p.
Definition recognises (separable : vec3 -> list vec3 -> list vec3 -> res bool) : Prop :=
  forall p A B, meet_only_at p A B -> separable p A B = Ok true.
