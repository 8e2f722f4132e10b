(** Curve-surface intersection: properties C145-C152. *)
From Coq Require Import List ZArith QArith Qcanon.
From Verif Require Import Base ModelVec ModelAabb ModelNurbs ModelSurface ModelCsx SpecAabb SpecNurbs SpecCurve SpecSurface SpecCcx SpecGjk SpecCsx
  ProofCsxTop WitnessCcx WitnessCsx.
Import ListNotations.
Open Scope Qc_scope.

(** C145 *)
Theorem C145_csx_sound :
  forall len newton degenerate apart separable curve_length fuel c s tol r hits,
  cuttable_curve (answers_t newton) c -> cuttable_surf (answers_u newton) (answers_v newton) s -> at_most len tol r ->
  csx len newton degenerate apart separable curve_length fuel c s tol = Some (Ok hits) ->
  forall h, In h hits -> true_hit r c s h.
Proof. exact csx_sound. Qed.
Print Assumptions C145_csx_sound.

Example C145_case : cuttable_curve (answers_t pole_newton) pole /\ cuttable_surf (answers_u pole_newton) (answers_v pole_newton) floor1 /\
  at_most len_l1 milli milli /\
  csx len_l1 pole_newton no_degenerate never_apart always_separable four_long 1 pole floor1 milli = Some (Ok pole_hits) /\ length pole_hits = 1%nat.
Proof. exact (conj (pole_cuttable _) (conj (floor1_cuttable _ _) (conj (at_most_l1 _ milli_nonneg) pole_found))). Qed.

(** C146 *)
Theorem C146_csx_ends :
  forall len newton degenerate apart separable curve_length c s tol L,
  cuttable_curve (answers_t newton) c -> cuttable_surf (answers_u newton) (answers_v newton) s ->
  answers3 newton -> answering degenerate -> answers_sets apart -> answering separable -> curve_length c = Ok L -> L <> 0 ->
  exists fuel0, forall fuel, (fuel0 <= fuel)%nat ->
  (exists hits, csx len newton degenerate apart separable curve_length fuel c s tol = Some (Ok hits)) \/
  csx len newton degenerate apart separable curve_length fuel c s tol = Some (Throw EInvalidArgument).
Proof. exact csx_ends. Qed.
Print Assumptions C146_csx_ends.

Example C146_case : cuttable_curve (answers_t inner_newton) pole /\ cuttable_surf (answers_u inner_newton) (answers_v inner_newton) floor1 /\
  answers3 inner_newton /\ answering no_degenerate /\ answers_sets never_apart /\ answering always_separable /\ four_long pole = Ok (qc 4 1).
Proof. exact (conj (pole_cuttable _) (conj (floor1_cuttable _ _) (conj (proj1 inner_case) (conj (proj1 (proj2 inner_case)) (conj (proj1 (proj2 (proj2 inner_case))) (conj (proj1 (proj2 (proj2 (proj2 inner_case)))) eq_refl)))))). Qed.

(** C147: false in general; a curve that starts on the surface makes the call throw *)
Theorem C147_csx_no_exception_refuted :
  exists c s tol p, 0 < tol /\ (forall answer, cuttable_curve answer c) /\ (forall au av, cuttable_surf au av s) /\ crosses_at c s 0 (qc 5 8) (qc 3 4) p /\
  forall len newton degenerate apart separable curve_length L fuel,
  len (V3 0 0 0) = Some 0 -> newton c s = Ok (0, qc 5 8, qc 3 4) -> answering degenerate -> exact_apart apart -> curve_length c = Ok L -> 1 <= L ->
  csx len newton degenerate apart separable curve_length (S fuel) c s tol = Some (Throw EInvalidArgument).
Proof. exact post_witness. Qed.
Print Assumptions C147_csx_no_exception_refuted.

(** with a tolerance above 1e-7 and a solver that does not answer at an end of the curve *)
Theorem C147_csx_no_exception_partial :
  forall len newton degenerate apart separable curve_length c s tol L,
  cuttable_curve (answers_t newton) c -> cuttable_surf (answers_u newton) (answers_v newton) s ->
  answers3 newton -> answering degenerate -> answers_sets apart -> answering separable -> curve_length c = Ok L -> L <> 0 ->
  lit_1em7 < tol * (snd (nc_interval c) - fst (nc_interval c)) / L ->
  (forall q w t u v, newton q w = Ok (t, u, v) -> fst (nc_interval q) <= t -> t <= snd (nc_interval q) ->
     lit_1em12 < t - fst (nc_interval q) /\ lit_1em12 < snd (nc_interval q) - t) ->
  exists fuel0, forall fuel, (fuel0 <= fuel)%nat ->
  exists hits, csx len newton degenerate apart separable curve_length fuel c s tol = Some (Ok hits).
Proof. exact csx_returns. Qed.
Print Assumptions C147_csx_no_exception_partial.

Example C147_case : lit_1em7 < milli * (snd (nc_interval pole) - fst (nc_interval pole)) / qc 4 1 /\
  (forall q w t u v, inner_newton q w = Ok (t, u, v) -> fst (nc_interval q) <= t -> t <= snd (nc_interval q) ->
     lit_1em12 < t - fst (nc_interval q) /\ lit_1em12 < snd (nc_interval q) - t) /\
  exists hits, csx len_l1 inner_newton no_degenerate never_apart always_separable four_long 1 pole floor1 milli = Some (Ok hits) /\ length hits = 1%nat.
Proof. exact (conj (proj1 (proj2 (proj2 (proj2 (proj2 inner_case))))) (conj inner_newton_inside (proj2 (proj2 (proj2 (proj2 (proj2 inner_case))))))). Qed.

(** C148: false; the second crossing of a curve is not looked for *)
Theorem C148_csx_complete_refuted :
  exists c s tol n m t1 u1 v1 p1 t2 u2 v2 p2,
  0 < tol /\ good_curve c n /\ unit_weights (nc_cps c) /\ interval_current c /\ good_surf s m m /\ unit_surf s /\ intervals_current s /\
  crosses_at c s t1 u1 v1 p1 /\ crosses_at c s t2 u2 v2 p2 /\ p1 <> p2 /\
  forall len newton degenerate apart separable curve_length L fuel,
  len (V3 0 0 0) = Some 0 -> newton c s = Ok (t1, u1, v1) -> answering degenerate -> exact_apart apart -> recognises separable ->
  curve_length c = Ok L -> 1 <= L ->
  exists d, csx len newton degenerate apart separable curve_length (S fuel) c s tol = Some (Ok [(d, p1, (t1, u1, v1))]).
Proof. exact roof_witness. Qed.
Print Assumptions C148_csx_complete_refuted.

(** what the solver finds for the whole curve and the whole surface is reported first *)
Theorem C148_csx_complete_partial :
  forall len newton degenerate apart separable curve_length fuel c s tol L hits t u v p q l,
  curve_length c = Ok L -> L <> 0 -> let ptol := tol * (snd (nc_interval c) - fst (nc_interval c)) / L in
  ptol <= snd (nc_interval c) - fst (nc_interval c) ->
  0 <= ptol -> qc 2 1 * ptol <= snd (ns_iu s) - fst (ns_iu s) -> qc 2 1 * ptol <= snd (ns_iv s) - fst (ns_iv s) ->
  no_new apart c s = Ok false ->
  newton c s = Ok (t, u, v) -> within (nc_interval c) t -> within (ns_iu s) u -> within (ns_iv s) v ->
  evaluate c t = Ok p -> ns_evaluate s u v = Ok q -> len (v3sub p q) = Some l -> l <= tol ->
  csx len newton degenerate apart separable curve_length fuel c s tol = Some (Ok hits) ->
  exists d rest, hits = (d, p, (t, u, v)) :: rest.
Proof. exact csx_first. Qed.
Print Assumptions C148_csx_complete_partial.

Example C148_case : let ptol := milli * (snd (nc_interval pole) - fst (nc_interval pole)) / qc 4 1 in
  four_long pole = Ok (qc 4 1) /\ ptol <= snd (nc_interval pole) - fst (nc_interval pole) /\ 0 <= ptol /\
  qc 2 1 * ptol <= snd (ns_iu floor1) - fst (ns_iu floor1) /\ qc 2 1 * ptol <= snd (ns_iv floor1) - fst (ns_iv floor1) /\
  no_new never_apart pole floor1 = Ok false /\ pole_newton pole floor1 = Ok (qc 1 4, qc 5 8, qc 3 4) /\
  crosses_at pole floor1 (qc 1 4) (qc 5 8) (qc 3 4) (V3 1 (qc 2 1) 0) /\ len_l1 (V3 0 0 0) = Some 0.
Proof. exact pole_first_case. Qed.

(** C149: false; over a small square of parameters nothing is ever reported *)
Theorem C149_csx_parametrization_refuted :
  exists c s s' h tol t u v p,
  0 < h /\ 0 < tol /\ ns_cps s' = ns_cps s /\ ns_du s' = ns_du s /\ ns_dv s' = ns_dv s /\
  ns_ku s' = map (Qcmult h) (ns_ku s) /\ ns_kv s' = map (Qcmult h) (ns_kv s) /\
  crosses_at c s t u v p /\ crosses_at c s' t (h * u) (h * v) p /\
  (exists len newton degenerate apart separable curve_length d, exact_on_axes len /\ curve_length c = Ok (qc 4 1) /\ exact_apart apart /\ recognises separable /\
     forall fuel, csx len newton degenerate apart separable curve_length (S fuel) c s tol = Some (Ok [(d, p, (t, u, v))])) /\
  (forall len newton degenerate apart separable curve_length fuel hits, curve_length c = Ok (qc 4 1) ->
     csx len newton degenerate apart separable curve_length fuel c s' tol = Some (Ok hits) -> hits = []).
Proof. exact reparam_witness. Qed.
Print Assumptions C149_csx_parametrization_refuted.

(** in general: intervals of the surface below twice the curve's parameter tolerance *)
Theorem C149_csx_small_interval_empty :
  forall len newton degenerate apart separable curve_length fuel c s tol L hits,
  curve_length c = Ok L -> L <> 0 -> let ptol := tol * (snd (nc_interval c) - fst (nc_interval c)) / L in
  (0 <= snd (ns_iu s) - fst (ns_iu s) /\ snd (ns_iu s) - fst (ns_iu s) < qc 2 1 * ptol) \/
  (0 <= snd (ns_iv s) - fst (ns_iv s) /\ snd (ns_iv s) - fst (ns_iv s) < qc 2 1 * ptol) ->
  csx len newton degenerate apart separable curve_length fuel c s tol = Some (Ok hits) -> hits = [].
Proof. exact csx_small_interval. Qed.
Print Assumptions C149_csx_small_interval_empty.

Example C149_case : four_long pole = Ok (qc 4 1) /\ 0 <= snd (ns_iu floor2) - fst (ns_iu floor2) /\
  snd (ns_iu floor2) - fst (ns_iu floor2) < qc 2 1 * (milli * (snd (nc_interval pole) - fst (nc_interval pole)) / qc 4 1) /\
  csx len_l1 pole_newton no_degenerate never_apart always_separable four_long 1 pole floor2 milli = Some (Ok []).
Proof. exact floor2_case. Qed.

(** C150: false; the test calls a set separable from the middle of it *)
Theorem C150_spherical_separation_refuted :
  exists A B p, in_hull3 A p /\ In p B /\ p <> V3 0 0 1 /\
  forall len sort keep, (forall v l, In v (A ++ B) -> 0 <= l -> v3sq v = l * l -> len v = Some l) ->
    spherical_test len sort keep (V3 0 0 1) A B = Ok true.
Proof. exact spherical_witness. Qed.
Print Assumptions C150_spherical_separation_refuted.

(** C151 *)
Theorem C151_aabb_test_sound : forall A B, aabb_test A B = Ok true -> ~ hulls_meet3 A B.
Proof. exact aabb_test_true. Qed.
Print Assumptions C151_aabb_test_sound.

Theorem C151_aabb_test_exact :
  forall A B, A <> [] -> B <> [] ->
  (aabb_test A B = Ok true <-> exists ax, (forall a b, In a A -> In b B -> coord a ax < coord b ax) \/ (forall a b, In a A -> In b B -> coord b ax < coord a ax)).
Proof. exact aabb_test_iff. Qed.
Print Assumptions C151_aabb_test_exact.

Example C151_case : aabb_test floor_pts [V3 1 1 1; V3 0 0 (qc 2 1)] = Ok true /\ aabb_test floor_pts [V3 1 1 1; V3 0 0 0] = Ok false.
Proof. split; vm_compute; reflexivity. Qed.

(** C152: false for a point at the height of the centre *)
Theorem C152_projection_refuted :
  exists o p q, o <> p /\ center_projection o p = Ok q /\ forall k, V3 (ux q) (uy q) 0 <> v3add o (v3scale (v3sub p o) k).
Proof. exact projection_witness. Qed.
Print Assumptions C152_projection_refuted.

Theorem C152_projection_partial :
  forall o p, vz o <> vz p ->
  exists q, center_projection o p = Ok q /\ exists k, V3 (ux q) (uy q) 0 = v3add o (v3scale (v3sub p o) k).
Proof. exact center_projection_spec. Qed.
Print Assumptions C152_projection_partial.

Example C152_case : center_projection (V3 0 0 (qc 2 1)) (V3 1 1 1) = Ok (V2 (qc 2 1) (qc 2 1)).
Proof. exact projection_case. Qed.
