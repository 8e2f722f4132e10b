(** Curve properties C35-C46, C49-C51 and C82-C84. *)
From Coq Require Import List ZArith QArith Qcanon Permutation Sorted Lia.
From Verif Require Import Base ModelVec ModelAabb ModelNurbs SpecAabb SpecNurbs SpecCurve
  ProofNurbsMisc ProofNurbsTop ProofDecompose WitnessNurbs.
Import ListNotations.
Open Scope Qc_scope.

(** C35 *)
Theorem C35_find_span_brackets :
  forall n p U u, valid_knots n p U -> in_domain n p U u ->
  exists s, find_span n p u U = Ok s /\ (p <= s <= n)%nat /\ knot U s <= u /\
    (u < knot U (s + 1) \/ (s = n /\ u = knot U (n + 1))).
Proof. exact find_span_top. Qed.
Print Assumptions C35_find_span_brackets.

(** C36 *)
Theorem C36_basis_functions :
  forall n p U u s N0, valid_knots n p U -> in_domain n p U u -> (p <= 8)%nat -> length N0 = 9%nat ->
  find_span n p u U = Ok s ->
  exists N, basis_funs s u p U N0 = Ok N /\
    firstn (p + 1) N = map (fun r => basis_at U n p u (s - p + r)) (seq 0 (p + 1)) /\
    skipn (p + 1) N = skipn (p + 1) N0 /\
    (forall r, (r <= p)%nat -> 0 <= nth r N 0) /\
    qsum (fun r => nth r N 0) (p + 1) = 1 /\
    (forall i, (i < s - p)%nat \/ (s < i)%nat -> (i <= n)%nat -> basis_at U n p u i = 0).
Proof. exact basis_funs_top. Qed.
Print Assumptions C36_basis_functions.

(** C37 *)
Theorem C37_evaluate_is_rational_bspline :
  forall c n u, good_curve c n -> in_curve c n u -> positive_weights (nc_cps c) ->
  evaluate c u = Ok (rational_point (nc_knots c) n (nc_degree c) (nc_cps c) u) /\
  0 < weight_at (nc_knots c) n (nc_degree c) (nc_cps c) u.
Proof. exact evaluate_top. Qed.
Print Assumptions C37_evaluate_is_rational_bspline.

(** C38: the point is a convex combination of degree + 1 consecutive control
    points, so it is in every box that contains the control points. *)
Theorem C38_curve_in_hull :
  forall c n u, good_curve c n -> in_curve c n u -> positive_weights (nc_cps c) ->
  exists pt, evaluate c u = Ok pt /\ in_hull_of_run (nc_degree c) (nc_cps c) pt /\
    forall b, (forall q, In q (nc_cps c) -> inside b (xyz q)) -> inside b pt.
Proof. exact hull_top. Qed.
Print Assumptions C38_curve_in_hull.

(** C39 *)
Theorem C39_box_encloses_unit_curve :
  forall cps p kv per n, good_curve (NC cps p kv per [] (0, 1) aabb_default) n -> unit_weights cps ->
  exists c, nc_make_knots cps p kv per = Ok c /\ nc_cps c = cps /\ nc_degree c = p /\ nc_knots c = kv /\
    nc_periodic c = per /\ interval_current c /\
    (forall u, in_curve c n u -> exists pt, evaluate c u = Ok pt /\ inside (nc_aabb c) pt) /\
    (forall b', (forall q, In q cps -> inside b' (xyz q)) -> subbox (nc_aabb c) b').
Proof. exact box_knots_top. Qed.
Print Assumptions C39_box_encloses_unit_curve.

(** C40: false with other weights. *)
Theorem C40_box_encloses_rational_curve_refuted :
  exists cps p c u pt, positive_weights cps /\ nc_make cps p false = Ok c /\ good_curve c 1 /\ in_curve c 1 u /\
    evaluate c u = Ok pt /\ ~ inside (nc_aabb c) pt.
Proof. exact rational_box_witness. Qed.
Print Assumptions C40_box_encloses_rational_curve_refuted.

(** C41 *)
Theorem C41_curve_interpolates_ends :
  forall pts p, (p < length pts)%nat -> (p <= 8)%nat ->
  exists c a b, nc_make3 pts p false = Ok c /\ nc_interval c = (a, b) /\
    evaluate c a = Ok (nth 0 pts (V3 0 0 0)) /\ evaluate c b = Ok (nth (length pts - 1) pts (V3 0 0 0)).
Proof. exact ends_top. Qed.
Print Assumptions C41_curve_interpolates_ends.

(** the same for any clamped knot vector and any positive weights *)
Theorem C41_clamped_curve_interpolates_ends :
  forall c n, good_curve c n -> clamped n (nc_degree c) (nc_knots c) ->
  knot (nc_knots c) (nc_degree c) < knot (nc_knots c) (nc_degree c + 1) -> positive_weights (nc_cps c) ->
  evaluate c (knot (nc_knots c) (nc_degree c)) = Ok (xyz (nth 0 (nc_cps c) (V4 0 0 0 0))) /\
  evaluate c (knot (nc_knots c) (n + 1)) = Ok (xyz (nth n (nc_cps c) (V4 0 0 0 0))).
Proof. exact ends_clamped. Qed.
Print Assumptions C41_clamped_curve_interpolates_ends.

(** C42 *)
Theorem C42_generated_knots :
  forall pts p, (p < length pts)%nat ->
  exists c n, nc_make3 pts p false = Ok c /\ length pts = S n /\ valid_knots n p (nc_knots c) /\
    clamped n p (nc_knots c) /\ length (nc_knots c) = (length pts + p + 1)%nat /\
    nc_interval c = (0, Qc_of_nat (length pts - p)) /\
    knot (nc_knots c) p = 0 /\ knot (nc_knots c) (n + 1) = Qc_of_nat (length pts - p) /\
    (forall i, (p <= i)%nat -> (i <= n + 1)%nat -> knot (nc_knots c) i = Qc_of_nat (i - p)).
Proof. exact knots_top. Qed.
Print Assumptions C42_generated_knots.

(** C43 and C44: [r] copies of [t] are inserted; [t] must not be confusable
    with another knot and end up with at most degree copies. *)
Theorem C43_insert_knot_valid :
  forall c n t r, good_curve c n -> knot (nc_knots c) (nc_degree c) <= t -> t < knot (nc_knots c) (n + 1) ->
  separated (nc_knots c) t -> (r + multiplicity (nc_knots c) t <= nc_degree c)%nat ->
  exists c', insert_knot c t r = Ok c' /\ good_curve c' (n + r) /\ nc_degree c' = nc_degree c /\
    Permutation (nc_knots c') (repeat t r ++ nc_knots c) /\ sorted (nc_knots c') /\
    length (nc_cps c') = (length (nc_cps c) + r)%nat /\
    nc_periodic c' = nc_periodic c /\ nc_aabb c' = nc_aabb c /\ interval_current c' /\
    (forall u, in_curve c' (n + r) u <-> in_curve c n u) /\
    (unit_weights (nc_cps c) -> unit_weights (nc_cps c') /\
     forall u, in_curve c n u -> exists pt, evaluate c u = Ok pt /\ evaluate c' u = Ok pt).
Proof. exact insert_top. Qed.
Print Assumptions C43_insert_knot_valid.

Theorem C44_insert_knot_keeps_curve :
  forall c n t r, good_curve c n -> knot (nc_knots c) (nc_degree c) <= t -> t < knot (nc_knots c) (n + 1) ->
  separated (nc_knots c) t -> (r + multiplicity (nc_knots c) t <= nc_degree c)%nat -> unit_weights (nc_cps c) ->
  exists c', insert_knot c t r = Ok c' /\
    forall u, in_curve c n u -> exists pt, evaluate c u = Ok pt /\ evaluate c' u = Ok pt.
Proof. exact insert_keeps. Qed.
Print Assumptions C44_insert_knot_keeps_curve.

(** C45: false with other weights. *)
Theorem C45_insert_knot_rational_refuted :
  exists cps c c' t u pt pt', positive_weights cps /\ nc_make cps 1 false = Ok c /\ good_curve c 1 /\ in_curve c 1 u /\
    insert_knot c t 1 = Ok c' /\ evaluate c u = Ok pt /\ evaluate c' u = Ok pt' /\ pt <> pt'.
Proof. exact rational_insert_witness. Qed.
Print Assumptions C45_insert_knot_rational_refuted.

(** What holds for all weights: insertion preserves the sums of N_i x_i,
    N_i y_i, N_i z_i and N_i w_i, that is, it is right for homogeneous control
    points (evaluation is right for Cartesian ones). *)
Theorem C45_insert_knot_rational_partial :
  forall c n t r, good_curve c n -> knot (nc_knots c) (nc_degree c) <= t -> t < knot (nc_knots c) (n + 1) ->
  separated (nc_knots c) t -> (r + multiplicity (nc_knots c) t <= nc_degree c)%nat ->
  exists c', insert_knot c t r = Ok c' /\ nc_degree c' = nc_degree c /\
    forall f, f = wx \/ f = wy \/ f = wz \/ f = ww -> forall u, in_curve c n u ->
    qsum (fun i => basis_at (nc_knots c') (n + r) (nc_degree c) u i * f (nth i (nc_cps c') (V4 0 0 0 0))) (S (n + r)) =
    qsum (fun i => basis_at (nc_knots c) n (nc_degree c) u i * f (nth i (nc_cps c) (V4 0 0 0 0))) (S n).
Proof. exact insert_homogeneous. Qed.
Print Assumptions C45_insert_knot_rational_partial.

(** C46 *)
Theorem C46_split_reproduces_curve :
  forall c n t, good_curve c n -> (1 <= nc_degree c)%nat -> unit_weights (nc_cps c) -> interval_current c ->
  knot (nc_knots c) (nc_degree c) < t -> t < knot (nc_knots c) (n + 1) ->
  separated (nc_knots c) t -> (multiplicity (nc_knots c) t <= nc_degree c)%nat ->
  exists c1 c2, nc_split c t false = Ok (c1, c2) /\
    traces c1 c (knot (nc_knots c) (nc_degree c)) t /\ traces c2 c t (knot (nc_knots c) (n + 1)).
Proof. exact split_top. Qed.
Print Assumptions C46_split_reproduces_curve.

Theorem C46_split_normalized :
  forall c n t, good_curve c n -> (1 <= nc_degree c)%nat -> unit_weights (nc_cps c) -> interval_current c ->
  knot (nc_knots c) (nc_degree c) < t -> t < knot (nc_knots c) (n + 1) ->
  separated (nc_knots c) t -> (multiplicity (nc_knots c) t <= nc_degree c)%nat ->
  let a := knot (nc_knots c) 0 in let b := knot (nc_knots c) (length (nc_knots c) - 1) in
  exists d1 d2, nc_split c t true = Ok (d1, d2) /\ nc_interval d1 = (0, 1) /\ nc_interval d2 = (0, 1) /\
    (forall u, knot (nc_knots c) (nc_degree c) <= u -> u <= t ->
       exists pt, evaluate c u = Ok pt /\ evaluate d1 ((u - a) / (t - a)) = Ok pt /\ inside (nc_aabb d1) pt) /\
    (forall u, t <= u -> u <= knot (nc_knots c) (n + 1) ->
       exists pt, evaluate c u = Ok pt /\ evaluate d2 ((u - t) / (b - t)) = Ok pt /\ inside (nc_aabb d2) pt).
Proof. exact split_normalized. Qed.
Print Assumptions C46_split_normalized.

Theorem C46_split_throws_at_ends :
  forall c t normalize, t <= fst (nc_interval c) \/ snd (nc_interval c) <= t ->
  nc_split c t normalize = Throw EInvalidArgument.
Proof. exact split_throws. Qed.
Print Assumptions C46_split_throws_at_ends.

(** C49: a copy is exact; a moved-to curve differs from the source, and this
    shows: giving both the same new control points gives different knots. *)
Theorem C49_move_curve_refuted :
  exists c pts k1 k2, nc_make pts 1 true = Ok c /\ nc_move c <> c /\
    (exists c1, nc_set_control_points c (firstn 2 pts) = Ok c1 /\ nc_knots c1 = k1) /\
    (exists c2, nc_set_control_points (nc_move c) (firstn 2 pts) = Ok c2 /\ nc_knots c2 = k2) /\ k1 <> k2.
Proof. exact move_witness. Qed.
Print Assumptions C49_move_curve_refuted.

Theorem C49_move_curve_partial :
  (forall c, nc_copy c = c) /\ (forall c, nc_periodic c = false -> nc_move c = c) /\
  (forall c u, evaluate (nc_move c) u = evaluate c u).
Proof. exact move_partial. Qed.
Print Assumptions C49_move_curve_partial.

(** C50 *)
Theorem C50_normalize_knots :
  forall c n, good_curve c n -> positive_weights (nc_cps c) ->
  let U := nc_knots c in let a := knot U 0 in let b := knot U (length U - 1) in
  exists c', normalize_knots c = Ok c' /\ good_curve c' n /\ nc_cps c' = nc_cps c /\ nc_degree c' = nc_degree c /\
    nc_periodic c' = nc_periodic c /\ nc_aabb c' = nc_aabb c /\
    nc_interval c' = (0, 1) /\ a < b /\ nc_knots c' = map (fun k => (k - a) / (b - a)) U /\
    (forall i j, knot (nc_knots c') i <= knot (nc_knots c') j <-> knot U i <= knot U j) /\
    (forall i j, knot (nc_knots c') i = knot (nc_knots c') j <-> knot U i = knot U j) /\
    (forall u, in_curve c n u -> in_curve c' n ((u - a) / (b - a)) /\
       exists pt, evaluate c u = Ok pt /\ evaluate c' ((u - a) / (b - a)) = Ok pt).
Proof. exact normalize_top. Qed.
Print Assumptions C50_normalize_knots.

(** C51 *)
Theorem C51_knot_multiplicities :
  forall U, sorted U -> (forall x y, In x U -> In y U -> x < y -> lit_1em8 <= y - x) ->
  let R := getKnotMultiplicities U in
  StronglySorted Qclt (map fst R) /\
  (forall x m, In (x, m) R <-> In x U /\ m = multiplicity U x) /\
  uniqueKnots U = map fst R.
Proof. exact knot_report. Qed.
Print Assumptions C51_knot_multiplicities.

(** C82: evaluation beyond degree 8 overruns the fixed buffers, always. *)
Theorem C82_evaluate_any_degree_refuted :
  forall c n u, length (nc_cps c) = S n -> valid_knots n (nc_degree c) (nc_knots c) -> (9 <= nc_degree c)%nat ->
  in_curve c n u -> evaluate c u = UB.
Proof. exact evaluate_high. Qed.
Print Assumptions C82_evaluate_any_degree_refuted.

(** C83: the box is stale after set_control_points. *)
Theorem C83_box_follows_control_points_refuted :
  exists c pts c' u pt, unit_weights pts /\ nc_set_control_points c pts = Ok c' /\ good_curve c' 1 /\ in_curve c' 1 u /\
    evaluate c' u = Ok pt /\ ~ inside (nc_aabb c') pt.
Proof. exact stale_box_witness. Qed.
Print Assumptions C83_box_follows_control_points_refuted.

Theorem C83_set_control_points_partial :
  forall c n cpts u, good_curve c n -> length cpts = S n -> positive_weights cpts -> in_curve c n u ->
  exists c', nc_set_control_points c cpts = Ok c' /\ nc_knots c' = nc_knots c /\ nc_degree c' = nc_degree c /\
    evaluate c' u = Ok (rational_point (nc_knots c) n (nc_degree c) cpts u).
Proof. exact set_points_top. Qed.
Print Assumptions C83_set_control_points_partial.

(** C84: [mids] lists the interior knots with their multiplicities. *)
Theorem C84_decompose_into_bezier :
  forall c n a mids b,
  good_curve c n -> (1 <= nc_degree c)%nat -> unit_weights (nc_cps c) ->
  (forall q, In q (nc_cps c) -> inside (nc_aabb c) (xyz q)) ->
  nc_knots c = repeat a (nc_degree c + 1) ++ runs mids ++ repeat b (nc_degree c + 1) ->
  gaps a (map fst mids ++ [b]) -> (forall t m, In (t, m) mids -> (1 <= m <= nc_degree c)%nat) ->
  exists pieces, decompose c = Ok pieces /\ length pieces = S (length mids) /\
    bezier_chain c a (map fst mids ++ [b]) pieces.
Proof. exact decompose_top. Qed.
Print Assumptions C84_decompose_into_bezier.

(** ** A case that meets the hypotheses: a quadratic through four points *)
Example demo_hypotheses :
  nc_make3 demo_points 2 false = Ok demo /\ good_curve demo 3 /\ unit_weights (nc_cps demo) /\ interval_current demo /\
  in_curve demo 3 (qc 1 2) /\ separated (nc_knots demo) (qc 1 2) /\ multiplicity (nc_knots demo) (qc 1 2) = 0%nat /\
  clamped 3 2 (nc_knots demo) /\ nc_knots demo = repeat 0 3 ++ runs [(1, 1%nat)] ++ repeat (qc 2 1) 3 /\
  gaps 0 [1; qc 2 1] /\ (forall q, In q (nc_cps demo) -> inside (nc_aabb demo) (xyz q)).
Proof. exact demo_ok. Qed.

Example demo_evaluates : evaluate demo (qc 1 2) = Ok (V3 1 (qc 11 8) 0).
Proof. apply v3_ok_eq. vm_compute. reflexivity. Qed.

Example demo_inserts : exists c', insert_knot demo (qc 1 2) 2 = Ok c' /\ evaluate c' (qc 1 2) = evaluate demo (qc 1 2).
Proof. exact demo_inserts_ok. Qed.

Example demo_decomposes : exists q1 q2, decompose demo = Ok [q1; q2].
Proof. exact demo_decomposes_ok. Qed.

(** and one of degree 9 *)
Example demo9 : exists c, nc_make3 (repeat (V3 0 0 0) 10) 9 false = Ok c /\ valid_knots 9 9 (nc_knots c) /\ in_curve c 9 0 /\ nc_degree c = 9%nat.
Proof. exact demo9_ok. Qed.
