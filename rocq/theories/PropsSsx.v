(** Surface-surface intersection: properties C171-C177. *)
From Coq Require Import List ZArith QArith Qcanon Permutation.
From Verif Require Import Base ModelVec ModelAabb ModelNurbs ModelSurface ModelBoundary ModelCsx ModelSsx
  SpecNurbs SpecCurve SpecSurface SpecMonomial SpecGjk SpecCsx SpecBoundary SpecSsx
  ProofSsxTop ProofSsxGauss WitnessNumeric WitnessCcx WitnessCsx WitnessSsx.
Import ListNotations.
Open Scope Qc_scope.

(** C171 *)
Theorem C171_ssx_sound :
  forall csx apart sph tol fuel s1 s2 out out', decomposable s1 -> decomposable s2 ->
  find_start csx apart sph tol fuel s1 s2 out = Some (Ok out') ->
  extends (true_patch csx tol s1 s2) (true_point tol s1 s2) out out'.
Proof. exact find_sound_top. Qed.
Print Assumptions C171_ssx_sound.

Theorem C171_detect_sound :
  forall csx apart sph tol fuel s1 g1 s2 g2 out out', halvable s1 -> halvable s2 ->
  detect csx apart sph tol fuel (s1, g1) (s2, g2) out = Some (Ok out') ->
  extends (true_patch csx tol s1 s2) (true_point tol s1 s2) out out'.
Proof. exact detect_sound_top. Qed.
Print Assumptions C171_detect_sound.

Example C171_case_points : decomposable rise /\ decomposable fall /\
  find_start two_hits never_apart never_simple (qc 1 2) 24 rise fall (SO [] []) = Some (Ok crossing_points) /\ (0 < length (so_points crossing_points))%nat.
Proof. exact (conj rise_decomposable (conj fall_decomposable crossing_found)). Qed.
Example C171_case_patch :
  find_start two_hits never_apart always_simple (qc 1 2) 24 rise fall (SO [] []) = Some (Ok crossing_patch) /\ length (so_patches crossing_patch) = 1%nat.
Proof. exact crossing_traced. Qed.

(** C172 *)
Theorem C172_ssx_ends :
  forall csx apart sph tol s1 s2 out, decomposable s1 -> decomposable s2 ->
  (ns_du s1 <= 4)%nat -> (ns_dv s1 <= 4)%nat -> (ns_du s2 <= 4)%nat -> (ns_dv s2 <= 4)%nat ->
  answers_curves csx tol -> answers_sets apart -> answers_sets sph ->
  exists r, (r = Throw EInvalidArgument \/ exists out', r = Ok out') /\
    forall fuel, (24 <= fuel)%nat -> find_start csx apart sph tol fuel s1 s2 out = Some r.
Proof. exact find_ends_top. Qed.
Print Assumptions C172_ssx_ends.

Theorem C172_detect_ends :
  forall csx apart sph tol s1 g1 s2 g2 out, halvable s1 -> halvable s2 -> halvable g1 -> halvable g2 ->
  snd (ns_iu g1) - fst (ns_iu g1) <= 1 -> answers_curves csx tol -> answers_sets apart -> answers_sets sph ->
  exists r, (r = Throw EInvalidArgument \/ exists out', r = Ok out') /\
    forall fuel, (24 <= fuel)%nat -> detect csx apart sph tol fuel (s1, g1) (s2, g2) out = Some r.
Proof. exact detect_ends_top. Qed.
Print Assumptions C172_detect_ends.

Example C172_case : decomposable rise /\ ns_du rise = 1%nat /\ ns_dv rise = 1%nat /\ answers_curves two_hits (qc 1 2) /\ answers_sets never_apart /\ answers_sets never_simple.
Proof.
  split; [exact rise_decomposable|]. split; [vm_compute; reflexivity|]. split; [vm_compute; reflexivity|]. split; [apply two_hits_answers|].
  split; intros A B _ _; eexists; reflexivity.
Qed.

(** C173: false; the subdivision throws once an interval is below 2e-7 *)
Theorem C173_ssx_no_exception_refuted :
  exists s1 s2, decomposable s1 /\ decomposable s2 /\
  forall csx apart sph tol fuel out, 0 <= tol -> tol < qc 8 1 -> exact_apart apart -> (forall A, A <> [] -> sph A A = Ok false) ->
  find_start csx apart sph tol (S fuel) s1 s2 out = Some (Throw EInvalidArgument).
Proof. exact ssx_throws. Qed.
Print Assumptions C173_ssx_no_exception_refuted.

(** C174: false; an overlap of boxes that is flat is dropped *)
Theorem C174_ssx_complete_refuted :
  exists s1 s2 u1 v1 u2 v2 p, decomposable s1 /\ decomposable s2 /\ meet_at s1 s2 u1 v1 u2 v2 p /\
  forall csx apart sph tol fuel, 0 <= tol -> tol < qc 2 1 -> find_start csx apart sph tol (S fuel) s1 s2 (SO [] []) = Some (Ok (SO [] [])).
Proof. exact ssx_incomplete. Qed.
Print Assumptions C174_ssx_complete_refuted.

(** every meeting is reported, or handed to the search on the boundaries, or dropped
    with a thin overlap *)
Theorem C174_ssx_accounted_partial :
  forall csx apart sph tol fuel s1 s2 out out' u1 v1 u2 v2 p, decomposable s1 -> decomposable s2 -> sound_apart apart ->
  find_start csx apart sph tol fuel s1 s2 out = Some (Ok out') -> meet_at s1 s2 u1 v1 u2 v2 p -> accounted csx tol s1 s2 out' u1 v1 u2 v2 p.
Proof. exact find_complete_top. Qed.
Print Assumptions C174_ssx_accounted_partial.

Example C174_case : decomposable rise /\ decomposable fall /\ sound_apart never_apart /\
  find_start two_hits never_apart never_simple (qc 1 2) 24 rise fall (SO [] []) = Some (Ok crossing_points) /\
  meet_at rise fall (qc 1 2) (qc 1 3) (qc 1 2) (qc 1 3) (V3 (qc 1 2) (qc 1 3) (qc 1 2)).
Proof.
  split; [exact rise_decomposable|]. split; [exact fall_decomposable|]. split; [intros A B; discriminate|]. split; [exact (proj1 crossing_found)|exact crossing_meets].
Qed.

(** C175 *)
Theorem C175_gauss_map :
  forall s n m, (1 <= n <= 4)%nat -> (1 <= m <= 4)%nat -> good_surf s n m -> unit_surf s -> ns_du s = n -> ns_dv s = m ->
  ns_ku s = repeat 0 (S n) ++ repeat 1 (S n) -> ns_kv s = repeat 0 (S m) ++ repeat 1 (S m) ->
  exists g P du dv, gauss_map s = Ok g /\ (forall u v, unit_square u v -> ns_evaluate s u v = Ok (P u v)) /\
    (forall u v, has_derivative3 (fun t => P t v) u (du u v)) /\ (forall u v, has_derivative3 (fun t => P u t) v (dv u v)) /\
    ns_iu g = (0, 1) /\ ns_iv g = (0, 1) /\ forall u v, unit_square u v -> ns_evaluate g u v = Ok (v3cross (du u v) (dv u v)).
Proof. exact gauss_top. Qed.
Print Assumptions C175_gauss_map.

Example C175_case : good_surf rise 1 1 /\ unit_surf rise /\ ns_ku rise = repeat 0 2 ++ repeat 1 2 /\ ns_kv rise = repeat 0 2 ++ repeat 1 2 /\
  gauss_map rise = Ok rise_map /\ ns_evaluate rise_map (qc 1 3) (qc 1 5) = Ok (V3 (- (1)) 0 1).
Proof. exact gauss_case. Qed.

(** C176: false; vectors of length at most 1 are compared without being normalised *)
Theorem C176_separable_normals_refuted :
  exists s1 s2 g1 g2 u v a b, good_surf s1 1 1 /\ unit_surf s1 /\ good_surf s2 1 1 /\ unit_surf s2 /\ gauss_map s1 = Ok g1 /\ gauss_map s2 = Ok g2 /\
  ns_evaluate g1 u v = Ok a /\ ns_evaluate g2 u v = Ok b /\ parallel a b /\
  forall len sort keep, (forall x, v3sq x <= qc 1 4 -> exists l, len x = Some l /\ l <= 1) -> (forall c l, Permutation (sort c l) l) ->
  gauss_separable (spherical_test len sort keep (V3 0 0 1)) g1 g2 = Ok true.
Proof. exact sheets_witness. Qed.
Print Assumptions C176_separable_normals_refuted.

(** with a test on the sphere that does what its name says *)
Theorem C176_separable_normals_partial :
  forall sph g1 g2 n1 m1 n2 m2, sound_sphere sph -> good_surf g1 n1 m1 -> positive_surf g1 -> good_surf g2 n2 m2 -> positive_surf g2 ->
  gauss_separable sph g1 g2 = Ok true ->
  forall u1 v1 u2 v2 a b, in_surf g1 n1 m1 u1 v1 -> in_surf g2 n2 m2 u2 v2 -> ns_evaluate g1 u1 v1 = Ok a -> ns_evaluate g2 u2 v2 = Ok b -> ~ parallel a b.
Proof. exact separable_sound. Qed.
Print Assumptions C176_separable_normals_partial.

Example C176_case : sound_sphere planes_sph /\ gauss_map door1 = Ok door1_map /\ gauss_map door2 = Ok door2_map /\ good_surf door1_map 1 1 /\ positive_surf door1_map /\ good_surf door2_map 1 1 /\ positive_surf door2_map /\
  gauss_separable planes_sph door1_map door2_map = Ok true.
Proof. exact (conj planes_sound doors_separable). Qed.

(** C177 *)
Theorem C177_sat3d_sound :
  forall hull len odd eps, 0 <= eps -> len (V3 0 0 0) = Some 0 -> covers hull -> sound_apart (sat3d hull len odd eps).
Proof. exact sat3d_sound. Qed.
Print Assumptions C177_sat3d_sound.

Example C177_case : covers whole /\ len_l1 (V3 0 0 0) = Some 0 /\
  sat3d whole len_l1 (fun _ _ => false) (qc 1 1000) [V3 0 0 0; V3 1 0 0; V3 0 1 0] [V3 0 0 (qc 5 1); V3 1 0 (qc 5 1)] = Ok true.
Proof. exact (conj whole_covers (conj len_l1_zero far_apart)). Qed.
