(** Polyline assembly, hash keys and boundary points: properties C73, C75 and C132-C138. *)
From Coq Require Import List ZArith QArith Qcanon Permutation.
From Verif Require Import Base ModelVec ModelNurbs ModelSurface ModelPolyline ModelBoundary SpecPolyline SpecBoundary
  ProofPolyline ProofBoundary WitnessSurface WitnessGjk WitnessBoundary.
Import ListNotations.
Open Scope Qc_scope.

(** C73: undefined for ordinary coordinates. The example in the header file is one. *)
Theorem C73_assemble_refuted :
  forall near segs branches s p, In s segs -> p = sp1 s \/ p = sp2 s -> big3 p ->
  build_index (make_endpoints 0 segs) = UB /\ assemble_polylines near segs branches = UB.
Proof. exact assemble_big. Qed.
Print Assumptions C73_assemble_refuted.

Theorem C73_segments_used_once_partial :
  forall near segs branches, Forall small_segment segs -> exists outs pts uses,
  assemble_polylines near segs branches = Ok (branches ++ outs) /\ assembled near segs outs pts uses.
Proof. exact assemble_once. Qed.
Print Assumptions C73_segments_used_once_partial.

(** C73: whenever it returns, whatever the coordinates *)
Theorem C73_when_it_returns :
  forall near segs branches r, assemble_polylines near segs branches = Ok r -> exists outs pts uses, r = branches ++ outs /\ assembled near segs outs pts uses.
Proof. exact assemble_returns_once. Qed.
Print Assumptions C73_when_it_returns.

Theorem C73_no_exception : forall near segs branches e, assemble_polylines near segs branches <> Throw e.
Proof. exact assemble_no_throw. Qed.
Print Assumptions C73_no_exception.

Example C73_case : Forall small_segment (example_segments tiny_unit) /\
  lens (assemble_polylines near_exact (example_segments tiny_unit) []) = [4; 4]%nat.
Proof. exact (conj tiny_small tiny_case). Qed.
Example C73_refuted_case : forall near br,
  build_index (make_endpoints 0 (example_segments 1)) = UB /\ assemble_polylines near (example_segments 1) br = UB.
Proof. exact example_ub. Qed.

(** C75 *)
Theorem C75_grouping :
  forall len points result, exists gs out,
  sort_boundary_intersections len points result = Ok (result ++ out) /\
  groups_of points gs out /\ grouping (length points) gs /\ pairs_nearest len points gs /\
  (finite_gaps len points -> only_last_single gs).
Proof. exact sort_ok. Qed.
Print Assumptions C75_grouping.

Example C75_case : finite_gaps len_sq five /\
  sort_boundary_intersections len_sq five [] = Ok [[bp 0 0 0; bp 1 0 0]; [bp 9 0 0; bp 10 0 0]; [bp 5 5 5]].
Proof. exact (conj five_finite five_case). Qed.
(** without finite distances every point may stay alone *)
Example C75_overflow : sort_boundary_intersections len_overflow [bp 0 0 0; bp 9 0 0] [] = Ok [[bp 0 0 0]; [bp 9 0 0]].
Proof. exact overflow_case. Qed.

(** C132 *)
Theorem C132_polylines_maximal :
  forall near segs branches r, near_sound near -> assemble_polylines near segs branches = Ok r -> exists outs pts uses,
  r = branches ++ outs /\ assembled near segs outs pts uses /\ cannot_be_joined near segs pts uses.
Proof. exact assemble_returns. Qed.
Print Assumptions C132_polylines_maximal.

(** for coordinates that can be quantised it returns *)
Theorem C132_returns :
  forall near segs branches, Forall small_segment segs -> near_sound near -> exists outs pts uses,
  assemble_polylines near segs branches = Ok (branches ++ outs) /\ assembled near segs outs pts uses /\
  cannot_be_joined near segs pts uses.
Proof. exact assemble_maximal. Qed.
Print Assumptions C132_returns.

Example C132_case : near_sound near_exact. Proof. exact near_exact_sound. Qed.

(** C133 *)
Theorem C133_hash_keys :
  (forall a, hashable a -> vec3_equal a a = Ok true) /\
  (forall a b, hashable a -> hashable b -> vec3_equal a b = Ok true -> vec3_equal b a = Ok true) /\
  (forall a b c, hashable a -> hashable b -> hashable c -> vec3_equal a b = Ok true -> vec3_equal b c = Ok true -> vec3_equal a c = Ok true) /\
  (forall h a b, hashable a -> hashable b -> vec3_equal a b = Ok true -> exists z, vec3_hash h a = Ok z /\ vec3_hash h b = Ok z).
Proof. exact equal_equivalence. Qed.
Print Assumptions C133_hash_keys.

Theorem C133_pair_keys : forall h a b z, pair_equal a b = true -> pair_hash h a = Ok z -> pair_hash h b = Ok z.
Proof. exact pair_hash_consistent. Qed.
Print Assumptions C133_pair_keys.

Theorem C133_pair_equal : forall a b, pair_equal a b = true <-> a = b.
Proof. exact pair_equal_exact. Qed.
Print Assumptions C133_pair_equal.

Example C133_case : exists a b, a <> b /\ hashable a /\ hashable b /\ vec3_equal a b = Ok true. Proof. exact hash_case. Qed.

(** C134: points a fifth apart count as equal; the true bound is 2/15 in each coordinate *)
Theorem C134_equal_keys_refuted :
  exists a b, hashable a /\ hashable b /\ vec3_equal a b = Ok true /\ qc 1 5 * qc 1 5 < v3distSq a b.
Proof. exact equal_far. Qed.
Print Assumptions C134_equal_keys_refuted.

Theorem C134_equal_keys_close_partial :
  forall a b, hashable a -> hashable b -> vec3_equal a b = Ok true ->
  Qcabs (vx a - vx b) < qc 2 15 /\ Qcabs (vy a - vy b) < qc 2 15 /\ Qcabs (vz a - vz b) < qc 2 15.
Proof. exact equal_close. Qed.
Print Assumptions C134_equal_keys_close_partial.

(** and points that differ by rounding may count as different *)
Theorem C134_close_points_refuted :
  exists a b, hashable a /\ hashable b /\ vec3_equal a b = Ok false /\ v3distSq a b < qc 1 1000000000000 * qc 1 1000000000000.
Proof. exact close_differ. Qed.
Print Assumptions C134_close_points_refuted.

(** C135 *)
Theorem C135_hash_every_vector_refuted : exists v, forall h, vec3_hash h v = UB.
Proof. exact hash_ub. Qed.
Print Assumptions C135_hash_every_vector_refuted.

Theorem C135_hash_defined_partial : forall h v, hashable v -> exists z, vec3_hash h v = Ok z.
Proof. exact hash_ok. Qed.
Print Assumptions C135_hash_defined_partial.

(** C136 *)
Theorem C136_boundary_points_are_hits :
  forall csx s1 s2 pts tol out, find_boundary_intersections csx s1 s2 pts tol = Ok out ->
  forall p, In p out -> In p pts \/ recorded csx tol s1 s2 true p \/ recorded csx tol s2 s1 false p.
Proof. exact find_sound. Qed.
Print Assumptions C136_boundary_points_are_hits.

Example C136_case : exists out, find_boundary_intersections distinct_hits demo_unit demo_rat [] (qc 1 1000000) = Ok out /\ length out = 2%nat.
Proof. exact find_case. Qed.

(** C137: hits much further apart than the tolerance are merged *)
Theorem C137_hits_kept_refuted : exists csx s1 s2 tol out curves c hits p w,
  find_boundary_intersections csx s1 s2 [] tol = Ok out /\ free_boundaries s1 = Ok curves /\ In c curves /\
  csx c s2 tol = Ok hits /\ In (p, w) hits /\ forall q, In q out -> tol * tol < v3distSq (ip_point q) p.
Proof. exact merge_far. Qed.
Print Assumptions C137_hits_kept_refuted.

Theorem C137_hits_kept_partial :
  forall csx s1 s2 pts tol out, find_boundary_intersections csx s1 s2 pts tol = Ok out ->
  distinct_points out /\
  forall own other, (own = s1 /\ other = s2) \/ (own = s2 /\ other = s1) ->
  forall curves c hits p w, free_boundaries own = Ok curves -> In c curves -> csx c other tol = Ok hits -> In (p, w) hits ->
  exists q, In q out /\ (ip_point q = p \/ vec3_equal (ip_point q) p = Ok true).
Proof. exact find_covers. Qed.
Print Assumptions C137_hits_kept_partial.

(** C138 *)
Theorem C138_start_params :
  forall pt t uv i first iv,
  get_start_params (ip_make pt t uv i first iv) =
    (ip_s1 (ip_make pt t uv i first iv), ip_s2 (ip_make pt t uv i first iv)) /\
  (let own := if first then ip_s1 (ip_make pt t uv i first iv) else ip_s2 (ip_make pt t uv i first iv) in
   (i = 0%Z -> own = (fst (fst iv), t)) /\ (i = 1%Z -> own = (snd (fst iv), t)) /\
   (i = 2%Z -> own = (t, fst (snd iv))) /\ (i = 3%Z -> own = (t, snd (snd iv)))) /\
  (if first then ip_s2 (ip_make pt t uv i first iv) else ip_s1 (ip_make pt t uv i first iv)) = uv.
Proof. exact start_params. Qed.
Print Assumptions C138_start_params.
