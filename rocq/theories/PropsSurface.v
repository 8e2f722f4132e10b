(** Surface properties C47, C48 and C85-C94. *)
From Coq Require Import List ZArith QArith Qcanon Permutation Lia.
From Verif Require Import Base ModelVec ModelAabb ModelNurbs ModelSurface SpecAabb SpecNurbs SpecCurve SpecSurface
  ProofSurfaceTop WitnessNurbs WitnessSurface.
Import ListNotations.
Open Scope Qc_scope.

(** C47 *)
Theorem C47_surface_is_tensor_product :
  forall s n m u v, good_surf s n m -> in_surf s n m u v -> positive_surf s ->
  ns_evaluate s u v = Ok (surf_point s n m u v) /\ 0 < tensor ww s n m u v.
Proof. exact surface_evaluate_top. Qed.
Print Assumptions C47_surface_is_tensor_product.

(** C48: both directions, for surfaces with unit weights; [dir] = true fixes u. *)
Theorem C48_isocurve_lies_on_surface :
  forall s n m t (dir : bool), good_surf s n m -> unit_surf s -> intervals_current s ->
  (if dir then in_domain n (ns_du s) (ns_ku s) t else in_domain m (ns_dv s) (ns_kv s) t) ->
  exists c, ns_isocurve s t dir = Ok c /\ good_curve c (if dir then m else n) /\
    nc_knots c = (if dir then ns_kv s else ns_ku s) /\ nc_degree c = (if dir then ns_dv s else ns_du s) /\
    unit_weights (nc_cps c) /\ interval_current c /\
    forall x, in_curve c (if dir then m else n) x -> exists pt, evaluate c x = Ok pt /\
      ns_evaluate s (if dir then t else x) (if dir then x else t) = Ok pt.
Proof. exact isocurve_top. Qed.
Print Assumptions C48_isocurve_lies_on_surface.

Theorem C48_isocurve_out_of_range :
  forall s t (dir : bool), let iv := if dir then ns_iu s else ns_iv s in
  t < fst iv \/ snd iv < t -> ns_isocurve s t dir = Throw EInvalidArgument.
Proof. exact isocurve_throws. Qed.
Print Assumptions C48_isocurve_out_of_range.

Theorem C48_boundaries :
  forall s n m, good_surf s n m -> unit_surf s -> intervals_current s ->
  clamped n (ns_du s) (ns_ku s) -> clamped m (ns_dv s) (ns_kv s) ->
  exists c0 c1 c2 c3, ns_boundaries s = Ok [c0; c1; c2; c3] /\
    good_curve c0 m /\ good_curve c1 m /\ good_curve c2 n /\ good_curve c3 n /\
    (forall v, in_curve c0 m v -> exists pt, evaluate c0 v = Ok pt /\ ns_evaluate s (fst (ns_iu s)) v = Ok pt) /\
    (forall v, in_curve c1 m v -> exists pt, evaluate c1 v = Ok pt /\ ns_evaluate s (snd (ns_iu s)) v = Ok pt) /\
    (forall u, in_curve c2 n u -> exists pt, evaluate c2 u = Ok pt /\ ns_evaluate s u (fst (ns_iv s)) = Ok pt) /\
    (forall u, in_curve c3 n u -> exists pt, evaluate c3 u = Ok pt /\ ns_evaluate s u (snd (ns_iv s)) = Ok pt).
Proof. exact boundaries_top. Qed.
Print Assumptions C48_boundaries.

(** C85 *)
Theorem C85_bbox_encloses_surface :
  forall s n m, good_surf s n m -> positive_surf s ->
  exists b, ns_bbox_of s = Ok b /\
    (forall u v, in_surf s n m u v -> exists pt, ns_evaluate s u v = Ok pt /\ inside b pt) /\
    (forall b', (forall row q, In row (ns_cps s) -> In q row -> inside b' (V3 (wx q / ww q) (wy q / ww q) (wz q / ww q))) -> subbox b b').
Proof. exact bbox_top. Qed.
Print Assumptions C85_bbox_encloses_surface.

(** C86: the box kept with the surface is never computed. *)
Theorem C86_surface_aabb_encloses_refuted :
  exists cps du dv s n m u v pt, ns_make cps du dv [] [] = Ok s /\ good_surf s n m /\ unit_surf s /\
    in_surf s n m u v /\ ns_evaluate s u v = Ok pt /\ ~ inside (ns_aabb s) pt.
Proof. exact surface_box_witness. Qed.
Print Assumptions C86_surface_aabb_encloses_refuted.

(** C87 *)
Theorem C87_insert_knot_u_keeps_surface :
  forall s n m t r, good_surf s n m -> positive_surf s -> intervals_current s ->
  knot (ns_ku s) (ns_du s) <= t -> t < knot (ns_ku s) (n + 1) ->
  separated (ns_ku s) t -> (r + multiplicity (ns_ku s) t <= ns_du s)%nat ->
  exists s', ns_insert_u s t r = Ok s' /\ good_surf s' (n + r) m /\
    Permutation (ns_ku s') (repeat t r ++ ns_ku s) /\ ns_kv s' = ns_kv s /\
    patch_of s' s (knot (ns_ku s) (ns_du s)) (knot (ns_ku s) (n + 1)) (knot (ns_kv s) (ns_dv s)) (knot (ns_kv s) (m + 1)).
Proof. exact insert_u_top. Qed.
Print Assumptions C87_insert_knot_u_keeps_surface.

Theorem C87_insert_knot_v_keeps_surface :
  forall s n m t r, good_surf s n m -> positive_surf s ->
  knot (ns_kv s) (ns_dv s) <= t -> t < knot (ns_kv s) (m + 1) ->
  separated (ns_kv s) t -> (r + multiplicity (ns_kv s) t <= ns_dv s)%nat ->
  exists s', ns_insert_v s t r = Ok s' /\ good_surf s' n (m + r) /\
    Permutation (ns_kv s') (repeat t r ++ ns_kv s) /\ ns_ku s' = ns_ku s /\
    patch_of s' s (knot (ns_ku s) (ns_du s)) (knot (ns_ku s) (n + 1)) (knot (ns_kv s) (ns_dv s)) (knot (ns_kv s) (m + 1)).
Proof. exact insert_v_top. Qed.
Print Assumptions C87_insert_knot_v_keeps_surface.

(** C88 *)
Theorem C88_split_u_reproduces_surface :
  forall s n m t tol, good_surf s n m -> positive_surf s -> intervals_current s -> (1 <= ns_du s)%nat ->
  let lo := knot (ns_ku s) (ns_du s) in let hi := knot (ns_ku s) (n + 1) in
  lo < t /\ t < hi /\ tol < t - lo /\ tol < hi - t ->
  separated (ns_ku s) t -> (multiplicity (ns_ku s) t <= ns_du s)%nat ->
  exists s1 s2, ns_split_u s t tol = Ok (s1, s2) /\
    patch_of s1 s lo t (knot (ns_kv s) (ns_dv s)) (knot (ns_kv s) (m + 1)) /\
    patch_of s2 s t hi (knot (ns_kv s) (ns_dv s)) (knot (ns_kv s) (m + 1)).
Proof. exact split_u_top. Qed.
Print Assumptions C88_split_u_reproduces_surface.

Theorem C88_split_v_reproduces_surface :
  forall s n m t tol, good_surf s n m -> positive_surf s -> intervals_current s -> (1 <= ns_dv s)%nat ->
  let lo := knot (ns_kv s) (ns_dv s) in let hi := knot (ns_kv s) (m + 1) in
  lo < t /\ t < hi /\ tol < t - lo /\ tol < hi - t ->
  separated (ns_kv s) t -> (multiplicity (ns_kv s) t <= ns_dv s)%nat ->
  exists s1 s2, ns_split_v s t tol = Ok (s1, s2) /\
    patch_of s1 s (knot (ns_ku s) (ns_du s)) (knot (ns_ku s) (n + 1)) lo t /\
    patch_of s2 s (knot (ns_ku s) (ns_du s)) (knot (ns_ku s) (n + 1)) t hi.
Proof. exact split_v_top. Qed.
Print Assumptions C88_split_v_reproduces_surface.

Theorem C88_split_at_edge_throws :
  forall s t tol, 0 <= tol ->
  (t <= fst (ns_iu s) + tol \/ snd (ns_iu s) - tol <= t -> ns_split_u s t tol = Throw EInvalidArgument) /\
  (t <= fst (ns_iv s) + tol \/ snd (ns_iv s) - tol <= t -> ns_split_v s t tol = Throw EInvalidArgument).
Proof. exact split_throws_top. Qed.
Print Assumptions C88_split_at_edge_throws.

(** C89 *)
Theorem C89_subdivide_reproduces_surface :
  forall s n m u0 v0, good_surf s n m -> positive_surf s -> intervals_current s ->
  (1 <= ns_du s)%nat -> (1 <= ns_dv s)%nat ->
  let a := knot (ns_ku s) (ns_du s) in let b := knot (ns_ku s) (n + 1) in
  let c := knot (ns_kv s) (ns_dv s) in let d := knot (ns_kv s) (m + 1) in
  a < u0 /\ u0 < b /\ lit_1em7 < u0 - a /\ lit_1em7 < b - u0 ->
  c < v0 /\ v0 < d /\ lit_1em7 < v0 - c /\ lit_1em7 < d - v0 ->
  separated (ns_ku s) u0 -> (multiplicity (ns_ku s) u0 <= ns_du s)%nat ->
  separated (ns_kv s) v0 -> (multiplicity (ns_kv s) v0 <= ns_dv s)%nat ->
  exists s11 s12 s21 s22, ns_subdivide_at s u0 v0 = Ok (s11, s12, s21, s22) /\
    patch_of s11 s a u0 c v0 /\ patch_of s12 s a u0 v0 d /\ patch_of s21 s u0 b c v0 /\ patch_of s22 s u0 b v0 d.
Proof. exact subdivide_top. Qed.
Print Assumptions C89_subdivide_reproduces_surface.

Theorem C89_subdivide_halves :
  forall s n m, good_surf s n m -> positive_surf s -> intervals_current s ->
  clamped n (ns_du s) (ns_ku s) -> clamped m (ns_dv s) (ns_kv s) -> (1 <= ns_du s)%nat -> (1 <= ns_dv s)%nat ->
  let a := knot (ns_ku s) (ns_du s) in let b := knot (ns_ku s) (n + 1) in
  let c := knot (ns_kv s) (ns_dv s) in let d := knot (ns_kv s) (m + 1) in
  let u0 := (a + b) / qc 2 1 in let v0 := (c + d) / qc 2 1 in
  lit_1em7 < u0 - a -> lit_1em7 < v0 - c ->
  separated (ns_ku s) u0 -> (multiplicity (ns_ku s) u0 <= ns_du s)%nat ->
  separated (ns_kv s) v0 -> (multiplicity (ns_kv s) v0 <= ns_dv s)%nat ->
  exists s11 s12 s21 s22, ns_subdivide s = Ok (s11, s12, s21, s22) /\
    patch_of s11 s a u0 c v0 /\ patch_of s12 s a u0 v0 d /\ patch_of s21 s u0 b c v0 /\ patch_of s22 s u0 b v0 d.
Proof. exact subdivide_halves. Qed.
Print Assumptions C89_subdivide_halves.

(** C90: the surface get_derivative returns cannot be evaluated anywhere. *)
Theorem C90_surface_get_derivative_refuted :
  exists s n m d, good_surf s n m /\ unit_surf s /\ intervals_current s /\
  ns_get_derivative s 0 = Ok d /\ forall u v pt, ns_evaluate d u v <> Ok pt.
Proof. exact derivative_witness. Qed.
Print Assumptions C90_surface_get_derivative_refuted.

Theorem C90_unit_surface_derivative_never_evaluates :
  forall s dir d, unit_surf s -> ns_get_derivative s dir = Ok d -> forall u v pt, ns_evaluate d u v <> Ok pt.
Proof. exact derivative_never. Qed.
Print Assumptions C90_unit_surface_derivative_never_evaluates.

(** C91: the box of an isocurve is never computed. *)
Theorem C91_isocurve_aabb_refuted :
  exists s n m t c x pt, good_surf s n m /\ unit_surf s /\ intervals_current s /\
  ns_isocurve s t true = Ok c /\ good_curve c m /\ in_curve c m x /\ evaluate c x = Ok pt /\ ~ inside (nc_aabb c) pt.
Proof. exact isocurve_box_witness. Qed.
Print Assumptions C91_isocurve_aabb_refuted.

(** C92: isocurves of surfaces with other weights. *)
Theorem C92_rational_isocurve_refuted :
  exists s n m t c x pt pt', good_surf s n m /\ positive_surf s /\ intervals_current s /\
  in_surf s n m t x /\ ns_isocurve s t true = Ok c /\ good_curve c m /\ in_curve c m x /\
  evaluate c x = Ok pt /\ ns_evaluate s t x = Ok pt' /\ pt <> pt'.
Proof. exact rational_isocurve_witness. Qed.
Print Assumptions C92_rational_isocurve_refuted.

(** What holds: the isocurve's homogeneous sums are those of the surface. *)
Theorem C92_rational_isocurve_partial :
  forall s n m t (dir : bool), good_surf s n m -> intervals_current s ->
  (if dir then in_domain n (ns_du s) (ns_ku s) t else in_domain m (ns_dv s) (ns_kv s) t) ->
  exists c, ns_isocurve s t dir = Ok c /\ good_curve c (if dir then m else n) /\
    forall f, f = wx \/ f = wy \/ f = wz \/ f = ww -> forall x,
      qsum (fun i => basis_at (nc_knots c) (if dir then m else n) (nc_degree c) x i * f (nth i (nc_cps c) (V4 0 0 0 0))) (S (if dir then m else n)) =
      tensor f s n m (if dir then t else x) (if dir then x else t).
Proof. exact isocurve_homogeneous. Qed.
Print Assumptions C92_rational_isocurve_partial.

(** C93: the free function in the V direction ignores the surface's u knots. *)
Theorem C93_free_isocurve_refuted :
  exists s n m t c x pt pt', good_surf s n m /\ unit_surf s /\ intervals_current s /\
  in_surf s n m x t /\ free_isocurve s t false = Ok c /\ good_curve c n /\ in_curve c n x /\
  evaluate c x = Ok pt /\ ns_evaluate s x t = Ok pt' /\ pt <> pt'.
Proof. exact free_isocurve_witness. Qed.
Print Assumptions C93_free_isocurve_refuted.

(** What holds: in the U direction it is the member function. *)
Theorem C93_free_isocurve_partial :
  forall s n m t, good_surf s n m -> intervals_current s -> in_domain n (ns_du s) (ns_ku s) t ->
  free_isocurve s t true = ns_isocurve s t true.
Proof. exact free_isocurve_u. Qed.
Print Assumptions C93_free_isocurve_partial.

(** C94 *)
Theorem C94_surface_constructor :
  forall cps du dv n m, length cps = S n -> (forall row, In row cps -> length row = S m) ->
  (du <= n)%nat -> (dv <= m)%nat -> (du <= 8)%nat -> (dv <= 8)%nat ->
  exists s, ns_make cps du dv [] [] = Ok s /\ good_surf s n m /\ intervals_current s /\ ns_cps s = cps /\
    ns_du s = du /\ ns_dv s = dv /\ clamped n du (ns_ku s) /\ clamped m dv (ns_kv s) /\
    ns_iu s = (0, Qc_of_nat (S n - du)) /\ ns_iv s = (0, Qc_of_nat (S m - dv)).
Proof. exact make_top. Qed.
Print Assumptions C94_surface_constructor.

Theorem C94_surface_constructor_empty :
  forall cps du dv ku kv, cps = [] \/ (exists l, cps = [] :: l) -> ns_make cps du dv ku kv = Throw EInvalidArgument.
Proof. exact make_throws. Qed.
Print Assumptions C94_surface_constructor_empty.

(** Concrete surfaces meeting the hypotheses above. *)
Example surface_hypotheses :
  good_surf demo_rat 3 2 /\ positive_surf demo_rat /\ (~ unit_surf demo_rat) /\ intervals_current demo_rat /\
  in_surf demo_rat 3 2 1 (qc 1 2) /\
  separated (ns_ku demo_rat) 1 /\ multiplicity (ns_ku demo_rat) 1 = 1%nat /\
  separated (ns_kv demo_rat) (qc 1 2) /\ multiplicity (ns_kv demo_rat) (qc 1 2) = 1%nat /\
  (knot (ns_ku demo_rat) 2 < 1 /\ 1 < knot (ns_ku demo_rat) 4 /\ lit_1em7 < 1 - knot (ns_ku demo_rat) 2 /\ lit_1em7 < knot (ns_ku demo_rat) 4 - 1) /\
  good_surf demo_unit 3 2 /\ unit_surf demo_unit /\ intervals_current demo_unit /\
  clamped 3 2 (ns_ku demo_unit) /\ clamped 2 1 (ns_kv demo_unit).
Proof. exact demo_surface_ok. Qed.
Example C47_case : ns_evaluate demo_rat 1 (qc 1 2) = Ok (V3 (qc 18 13) 1 (qc 18 13)).
Proof. apply v3_ok_eq. vm_compute. reflexivity. Qed.
Example C89_case : exists a b c d, ns_subdivide_at demo_rat 1 (qc 1 2) = Ok (a, b, c, d).
Proof. vm_compute. eauto. Qed.

Example C89_halves_case : clamped 3 2 (ns_ku demo_rat) /\ clamped 2 1 (ns_kv demo_rat) /\
  separated (ns_ku demo_rat) (qc 3 2) /\ separated (ns_kv demo_rat) (qc 1 2) /\ exists a b c d, ns_subdivide demo_rat = Ok (a, b, c, d).
Proof. exact halves_case. Qed.
