(** Polylines, joined curves, periodic curves and lengths: properties C178-C184. *)
From Coq Require Import List ZArith QArith Qcanon Bool Lia.
From Verif Require Import Base BaseFacts ModelVec ModelAabb ModelNurbs ModelNumeric ModelDerivative ModelJoin
  SpecNurbs SpecCurve SpecDerivative SpecNumeric SpecJoin
  ProofJoin ProofPeriodic ProofJoinTop ProofLength WitnessNumeric WitnessJoin.
Import ListNotations.
Open Scope Qc_scope.

(** C178 *)
Theorem C178_polyline :
  forall c n p, good_curve c n -> nc_degree c = 1%nat -> positive_weights (nc_cps c) -> simple_knots n 1 (nc_knots c) ->
  (traced c n p <-> on_polygon (map xyz (nc_cps c)) p).
Proof. exact polygon_top. Qed.
Print Assumptions C178_polyline.

(** segment i is run through between knots i + 1 and i + 2 *)
Theorem C178_polyline_order :
  forall c n i p, good_curve c n -> nc_degree c = 1%nat -> positive_weights (nc_cps c) -> (i < n)%nat -> simple_knots n 1 (nc_knots c) ->
  on_segment (xyz (nth i (nc_cps c) (V4 0 0 0 0))) (xyz (nth (i + 1) (nc_cps c) (V4 0 0 0 0))) p ->
  exists t, knot (nc_knots c) (i + 1) <= t /\ t <= knot (nc_knots c) (i + 2) /\ in_curve c n t /\ evaluate c t = Ok p.
Proof. exact polygon_segment. Qed.
Print Assumptions C178_polyline_order.

Example C178_case : exists n, good_curve (curve_of corner1 1) n /\ nc_degree (curve_of corner1 1) = 1%nat /\
  positive_weights (nc_cps (curve_of corner1 1)) /\ simple_knots n 1 (nc_knots (curve_of corner1 1)) /\ (1 < n)%nat.
Proof.
  destruct (curve_of_open corner1 1 2 ltac:(cbn; lia) ltac:(lia) eq_refl) as ((G & _ & _ & W & _) & _ & D & _ & K).
  exists 2%nat. auto 7.
Qed.

(** C179 *)
Theorem C179_join :
  forall len c1 c2 n1 n2, open_curve c1 n1 -> open_curve c2 n2 ->
  exists o, nc_join len c1 c2 = Ok o /\
    (o <> None <-> ~ wraps c1 /\ ~ wraps c2 /\ exists f1 e1 f2 e2, ends c1 f1 e1 /\ ends c2 f2 e2 /\ touching len e1 e2) /\
    forall r, o = Some r -> exists l1 l2,
      either_way l1 (nc_cps c1) /\ either_way l2 (nc_cps c2) /\
      touching len (xyz (last l1 (V4 0 0 0 0))) (xyz (nth 0 l2 (V4 0 0 0 0))) /\
      nc_degree r = nc_degree c1 /\
      ((nc_periodic r = false /\ nc_cps r = l1 ++ l2 /\
        ~ touching len (divided (nth 0 (l1 ++ l2) (V4 0 0 0 0))) (divided (last (l1 ++ l2) (V4 0 0 0 0)))) \/
       (nc_periodic r = true /\ (nc_cps r = l1 ++ l2 \/ nc_cps r = (l1 ++ l2) ++ firstn (nc_degree c1) (l1 ++ l2)) /\ wraps r /\
        touching len (divided (nth 0 (l1 ++ l2) (V4 0 0 0 0))) (divided (last (l1 ++ l2) (V4 0 0 0 0))))).
Proof. exact join_top. Qed.
Print Assumptions C179_join.

Example C179_case_open : open_curve (curve_of corner1 1) 2 /\ open_curve (curve_of arm 1) 1 /\
  exists r, nc_join taxi_len (curve_of corner1 1) (curve_of arm 1) = Ok (Some r) /\ nc_periodic r = false.
Proof.
  split; [exact (proj1 (curve_of_open corner1 1 2 ltac:(cbn; lia) ltac:(lia) eq_refl))|].
  split; [exact (proj1 (curve_of_open arm 1 1 ltac:(cbn; lia) ltac:(lia) eq_refl))|]. exact (ex_intro _ _ (conj joins_arm arm_open)).
Qed.
Example C179_case_closed : exists r, nc_join taxi_len (curve_of corner1 1) (curve_of corner2 1) = Ok (Some r) /\ nc_periodic r = true.
Proof. exact (ex_intro _ _ (conj joins_square (proj1 square_periodic))). Qed.
Example C179_case_apart : nc_join taxi_len (curve_of corner1 1) (curve_of [pt 5 5; pt 7 7] 1) = Ok None.
Proof. exact not_joined. Qed.

(** C180: the degree of the first curve is used for the points of both *)
Theorem C180_join_traces_refuted :
  exists len c1 c2 n1 n2 r n p, open_curve c1 n1 /\ open_curve c2 n2 /\ nc_join len c1 c2 = Ok (Some r) /\
    good_curve r n /\ traced c2 n2 p /\ ~ traced r n p.
Proof. exact arch_refutes. Qed.
Print Assumptions C180_join_traces_refuted.

(** two polylines are joined to a polyline through the points of both *)
Theorem C180_join_traces_partial :
  forall len c1 c2 n1 n2 r, open_curve c1 n1 -> open_curve c2 n2 -> nc_degree c1 = 1%nat -> nc_degree c2 = 1%nat ->
  simple_knots n1 1 (nc_knots c1) -> simple_knots n2 1 (nc_knots c2) -> nc_join len c1 c2 = Ok (Some r) ->
  exists n f1 e1 f2 e2, good_curve r n /\ ends c1 f1 e1 /\ ends c2 f2 e2 /\ touching len e1 e2 /\
    forall p, traced r n p <-> traced c1 n1 p \/ traced c2 n2 p \/ on_segment e1 e2 p \/ (nc_periodic r = true /\ on_segment f1 f2 p).
Proof. exact join_polyline. Qed.
Print Assumptions C180_join_traces_partial.

Example C180_case : open_curve (curve_of corner1 1) 2 /\ open_curve (curve_of corner2 1) 2 /\
  simple_knots 2 1 (nc_knots (curve_of corner1 1)) /\ simple_knots 2 1 (nc_knots (curve_of corner2 1)) /\
  nc_join taxi_len (curve_of corner1 1) (curve_of corner2 1) = Ok (Some square).
Proof.
  destruct (curve_of_open corner1 1 2 ltac:(cbn; lia) ltac:(lia) eq_refl) as (O1 & _ & _ & _ & K1).
  destruct (curve_of_open corner2 1 2 ltac:(cbn; lia) ltac:(lia) eq_refl) as (O2 & _ & _ & _ & K2).
  exact (conj O1 (conj O2 (conj K1 (conj K2 joins_square)))).
Qed.

(** C181: interval() of a periodic curve goes past its domain *)
Theorem C181_periodic_closes_refuted :
  exists cps p c a b, (1 <= p)%nat /\ (p < length cps)%nat /\ unit_weights cps /\ nc_make cps p true = Ok c /\
    evaluate c (fst (nc_interval c)) = Ok a /\ evaluate c (snd (nc_interval c)) = Ok b /\ a <> b.
Proof. exact tile_refutes. Qed.
Print Assumptions C181_periodic_closes_refuted.

(** over the domain of its basis it is closed, and of degree 2 and 3 also smooth there *)
Theorem C181_periodic_closes_partial :
  forall cps p, (1 <= p)%nat -> (p < length cps)%nat -> (p <= 8)%nat -> positive_weights cps ->
  exists c n, nc_make cps p true = Ok c /\ good_curve c n /\ nc_degree c = p /\ nc_periodic c = true /\
    (nc_cps c = cps \/ nc_cps c = cps ++ firstn p cps) /\ wraps c /\
    (exists pt, evaluate c (knot (nc_knots c) p) = Ok pt /\ evaluate c (knot (nc_knots c) (n + 1)) = Ok pt) /\
    ((2 <= p <= 3)%nat ->
     exists d, nc_derivative c (knot (nc_knots c) p) = Ok d /\ nc_derivative c (knot (nc_knots c) (n + 1)) = Ok d).
Proof. exact periodic_top. Qed.
Print Assumptions C181_periodic_closes_partial.

Example C181_case : (1 <= 1)%nat /\ (1 < length tile)%nat /\ (1 <= 8)%nat /\ nc_make tile 1 true = Ok tile_curve /\ nc_periodic tile_curve = true.
Proof. split; [lia|]. split; [cbn; lia|]. split; [lia|]. split; [exact tile_made|vm_compute; reflexivity]. Qed.

(** C182 *)
Theorem C182_length_bounds :
  forall length c n t0 t1 tol lo hi, good_curve c n -> (1 <= nc_degree c <= 3)%nat -> unit_weights (nc_cps c) ->
  in_curve c n t0 -> in_curve c n t1 -> t0 <= t1 ->
  (forall t v, t0 <= t -> t <= t1 -> velocity_at c n t v -> lo <= length v /\ length v <= hi) ->
  exists l, nc_length length c t0 t1 tol = Ok l /\ lo * (t1 - t0) <= l /\ l <= hi * (t1 - t0).
Proof. exact length_bounds_top. Qed.
Print Assumptions C182_length_bounds.

(** from the start of the interval, and the whole length *)
Theorem C182_length_to :
  forall length c n t tol lo hi, good_curve c n -> (1 <= nc_degree c <= 3)%nat -> unit_weights (nc_cps c) ->
  in_curve c n (fst (nc_interval c)) -> in_curve c n t -> fst (nc_interval c) <= t ->
  (forall x v, fst (nc_interval c) <= x -> x <= t -> velocity_at c n x v -> lo <= length v /\ length v <= hi) ->
  exists l, nc_length_to length c t tol = Ok l /\ lo * (t - fst (nc_interval c)) <= l /\ l <= hi * (t - fst (nc_interval c)).
Proof. exact length_to_top. Qed.
Print Assumptions C182_length_to.

Theorem C182_length_all :
  forall length c n lo hi, good_curve c n -> (1 <= nc_degree c <= 3)%nat -> unit_weights (nc_cps c) ->
  in_curve c n (fst (nc_interval c)) -> in_curve c n (snd (nc_interval c)) -> fst (nc_interval c) <= snd (nc_interval c) ->
  (forall x v, fst (nc_interval c) <= x -> x <= snd (nc_interval c) -> velocity_at c n x v -> lo <= length v /\ length v <= hi) ->
  exists l, nc_length_all length c = Ok l /\ lo * (snd (nc_interval c) - fst (nc_interval c)) <= l /\ l <= hi * (snd (nc_interval c) - fst (nc_interval c)).
Proof. exact length_all_top. Qed.
Print Assumptions C182_length_all.

Example C182_case : nc_interval ruler = (0, 1) /\ good_curve ruler 1 /\ nc_degree ruler = 1%nat /\ unit_weights (nc_cps ruler) /\ in_curve ruler 1 0 /\ in_curve ruler 1 1 /\
  forall t v, 0 <= t -> t <= 1 -> velocity_at ruler 1 t v -> qc 5 1 <= true_length v /\ true_length v <= qc 5 1.
Proof.
  destruct ruler_open as ((G & _) & D & W). split; [vm_compute; reflexivity|]. split; [exact G|]. split; [exact D|]. split; [exact W|]. split; [apply ruler_in; discriminate|]. split; [apply ruler_in; discriminate|].
  intros t v A B V. rewrite (ruler_speed true_length t v true_length_exact (ruler_in t A B) V). split; apply Qcle_refl.
Qed.

(** C183: adaptive integration can miss every piece on which the curve moves *)
Theorem C183_length_distance_refuted :
  exists c n a b, good_curve c n /\ unit_weights (nc_cps c) /\ nc_interval c = (0, qc 8 1) /\
    evaluate c 0 = Ok a /\ evaluate c (qc 8 1) = Ok b /\ v3distSq a b = qc 3000 1 * qc 3000 1 /\
    forall length, exact_length length -> nc_length_all length c = Ok 0.
Proof. exact stair_refutes. Qed.
Print Assumptions C183_length_distance_refuted.

Theorem C183_length_distance_partial :
  forall length a b, exists c, nc_make3 [a; b] 1 false = Ok c /\ nc_interval c = (0, 1) /\ nc_length_all length c = Ok (length (v3sub b a)).
Proof. exact segment_top. Qed.
Print Assumptions C183_length_distance_partial.

Example C183_case : exact_length true_length.
Proof. exact true_length_exact. Qed.

(** C184 *)
Theorem C184_length_at :
  forall length c n l t0 guess tol s, good_curve c n -> (1 <= nc_degree c <= 3)%nat -> unit_weights (nc_cps c) ->
  in_curve c n t0 -> in_curve c n guess -> in_curve c n (t0 + l / s) -> lit_1em10 <= s ->
  (forall t v, in_curve c n t -> velocity_at c n t v -> length v = s) ->
  nc_length_at length c l t0 guess tol = Ok (Some (t0 + l / s)) /\ nc_length length c t0 (t0 + l / s) tol = Ok l.
Proof. exact length_at_top. Qed.
Print Assumptions C184_length_at.

Theorem C184_length_at_from_start :
  forall length c n l tol s, good_curve c n -> (1 <= nc_degree c <= 3)%nat -> unit_weights (nc_cps c) ->
  in_curve c n (fst (nc_interval c)) -> in_curve c n (snd (nc_interval c)) -> in_curve c n (fst (nc_interval c) + l / s) -> lit_1em10 <= s ->
  (forall t v, in_curve c n t -> velocity_at c n t v -> length v = s) ->
  nc_length_at_all length c l tol = Ok (Some (fst (nc_interval c) + l / s)) /\ nc_length_to length c (fst (nc_interval c) + l / s) tol = Ok l.
Proof. exact length_at_all_top. Qed.
Print Assumptions C184_length_at_from_start.

Example C184_case : good_curve ruler 1 /\ nc_degree ruler = 1%nat /\ unit_weights (nc_cps ruler) /\ in_curve ruler 1 0 /\
  in_curve ruler 1 (0 + qc 2 1 / qc 5 1) /\ lit_1em10 <= qc 5 1 /\
  forall t v, in_curve ruler 1 t -> velocity_at ruler 1 t v -> true_length v = qc 5 1.
Proof.
  destruct ruler_open as ((G & _) & D & W). split; [exact G|]. split; [exact D|]. split; [exact W|]. split; [apply ruler_in; discriminate|].
  split; [apply ruler_in; apply Qcleb_iff; vm_compute; reflexivity|]. split; [apply Qcleb_iff; vm_compute; reflexivity|].
  intros t v A V. exact (ruler_speed true_length t v true_length_exact A V).
Qed.
