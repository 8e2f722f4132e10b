(** Concrete cases for polyline assembly and boundary points. *)
From Coq Require Import List ZArith Lia QArith Qcanon Bool.
From Verif Require Import Base BaseFacts ModelVec ModelNurbs ModelSurface ModelPolyline ModelBoundary SpecPolyline SpecBoundary
  ProofMinimize ProofPolyline ProofBoundary WitnessNurbs WitnessSurface WitnessGjk.
Import ListNotations.
Open Scope Qc_scope.

(** ** Polylines *)
Definition se (x1 y1 z1 x2 y2 z2 : Z) (u : Qc) : segment := SEG (v3scale (v3i x1 y1 z1) u) (v3scale (v3i x2 y2 z2) u).
(** the example of the header file, in units of [u] *)
Definition example_segments (u : Qc) : list segment :=
  [se 0 0 0 1 0 0 u; se 1 0 0 1 1 0 u; se 1 1 0 0 1 0 u; se 0 1 0 0 0 0 u; se 2 0 0 3 0 0 u; se 3 0 0 3 1 0 u; se 3 1 0 2 1 0 u].
Definition tiny_unit : Qc := qc 1000 4503599627370496.

Definition smallb (c : Qc) : bool := Qcabs c <=? qc 2147483646 4503599627370496.
Definition small_segmentb (s : segment) : bool :=
  smallb (vx (sp1 s)) && smallb (vy (sp1 s)) && smallb (vz (sp1 s)) && smallb (vx (sp2 s)) && smallb (vy (sp2 s)) && smallb (vz (sp2 s)).
Lemma small_segmentb_ok s : small_segmentb s = true -> small_segment s.
Proof. unfold small_segmentb, smallb. rewrite !andb_true_iff, !Qcleb_iff. unfold small_segment, small3, small. tauto. Qed.
Lemma tiny_small : Forall small_segment (example_segments tiny_unit).
Proof. apply Forall_forall. intros s Hs. apply small_segmentb_ok. revert s Hs. apply forallb_forall. vm_compute. reflexivity. Qed.

Definition lens (r : res (list (list vec3))) : list nat := match r with Ok l => map (@length vec3) l | _ => [] end.
Lemma tiny_case : lens (assemble_polylines near_exact (example_segments tiny_unit) []) = [4; 4]%nat.
Proof. vm_compute. reflexivity. Qed.

Lemma big_b p : (qc 1 1000000 <=? Qcabs (vx p)) = true -> big3 p.
Proof. intros H. left. apply Qcleb_iff. assumption. Qed.

Lemma example_ub : forall near br, build_index (make_endpoints 0 (example_segments 1)) = UB /\ assemble_polylines near (example_segments 1) br = UB.
Proof.
  intros near br. apply (assemble_big near _ br (se 0 0 0 1 0 0 1) (v3scale (v3i 1 0 0) 1)); [left; reflexivity|right; reflexivity|].
  apply big_b. vm_compute. reflexivity.
Qed.

(** ** Hash keys *)
Definition hb (c : Qc) : bool := Qcabs c <? qc 143165576 1.
Lemma hashable_b v : hb (vx v) && hb (vy v) && hb (vz v) = true -> hashable v.
Proof. unfold hb. rewrite !andb_true_iff, !Qcltb_iff. unfold hashable. tauto. Qed.

Lemma equal_far : exists a b, hashable a /\ hashable b /\ vec3_equal a b = Ok true /\ qc 1 5 * qc 1 5 < v3distSq a b.
Proof.
  exists (V3 (qc (-1) 16) (qc (-1) 16) (qc (-1) 16)), (V3 (qc 1 16) (qc 1 16) (qc 1 16)).
  split; [apply hashable_b; vm_compute; reflexivity|]. split; [apply hashable_b; vm_compute; reflexivity|].
  split; [vm_compute; reflexivity|]. apply Qcltb_iff. vm_compute. reflexivity.
Qed.
Lemma close_differ : exists a b, hashable a /\ hashable b /\ vec3_equal a b = Ok false /\ v3distSq a b < qc 1 1000000000000 * qc 1 1000000000000.
Proof.
  exists (V3 (qc 1 15) 0 0), (V3 (qc 1 15 - qc 1 10000000000000) 0 0).
  split; [apply hashable_b; vm_compute; reflexivity|]. split; [apply hashable_b; vm_compute; reflexivity|].
  split; [vm_compute; reflexivity|]. apply Qcltb_iff. vm_compute. reflexivity.
Qed.
Lemma hash_ub : exists v, forall h, vec3_hash h v = UB.
Proof. exists (V3 (qc 143165577 1) 0 0). intros h. apply big_unhashable. apply Qcleb_iff. vm_compute. reflexivity. Qed.
Lemma hash_case : exists a b, a <> b /\ hashable a /\ hashable b /\ vec3_equal a b = Ok true.
Proof.
  exists (v3i 3 4 5), (V3 (qc 301 100) (qc 4 1) (qc 5 1)). split; [intros E; apply (f_equal (fun v => vx v =? qc 3 1)) in E; vm_compute in E; discriminate|].
  split; [apply hashable_b; vm_compute; reflexivity|]. split; [apply hashable_b; vm_compute; reflexivity|]. vm_compute. reflexivity.
Qed.

(** ** Duplicates *)
Definition two_hits : list (vec3 * (Qc * Qc * Qc)) := [(V3 (qc 1 16) 0 0, (0, 0, 0)); (V3 0 0 0, (1, 0, 0))].
Definition stub (c : ncurve) (s : nsurf) (tol : Qc) : res (list (vec3 * (Qc * Qc * Qc))) := Ok two_hits.
Definition merged : res (list ipoint) := find_boundary_intersections stub demo_unit demo_unit [] (qc 1 1000000).
Definition far_from (q : vec3) (l : list ipoint) : bool := forallb (fun p => qc 1 1000000 * qc 1 1000000 <? v3distSq (ip_point p) q) l.
Lemma merged_b : match merged with Ok out => far_from (V3 (qc 1 16) 0 0) out && Nat.eqb (length out) 1 | _ => false end = true.
Proof. vm_compute. reflexivity. Qed.
Lemma boundaries_b : match free_boundaries demo_unit with Ok l => Nat.eqb (length l) 4 | _ => false end = true.
Proof. vm_compute. reflexivity. Qed.

Lemma merge_far : exists csx s1 s2 tol out curves c hits p w,
  find_boundary_intersections csx s1 s2 [] tol = Ok out /\ free_boundaries s1 = Ok curves /\ In c curves /\
  csx c s2 tol = Ok hits /\ In (p, w) hits /\ forall q, In q out -> tol * tol < v3distSq (ip_point q) p.
Proof.
  pose proof merged_b as M. destruct merged as [out| |] eqn:E; try discriminate. apply andb_true_iff in M as [M _].
  pose proof boundaries_b as B. destruct (free_boundaries demo_unit) as [cs| |] eqn:Eb; try discriminate.
  destruct cs as [|c cs]; [discriminate|].
  exists stub, demo_unit, demo_unit, (qc 1 1000000), out, (c :: cs), c, two_hits, (V3 (qc 1 16) 0 0), (0, 0, 0).
  split; [exact E|]. split; [exact Eb|]. split; [left; reflexivity|]. split; [reflexivity|]. split; [left; reflexivity|].
  intros q Hq. unfold far_from in M. rewrite forallb_forall in M. apply Qcltb_iff. exact (M q Hq).
Qed.

Definition distinct_hits (c : ncurve) (s : nsurf) (tol : Qc) : res (list (vec3 * (Qc * Qc * Qc))) :=
  Ok [(v3i 1 2 3, (0, 0, 1)); (v3i 4 5 6, (1, 0, 0))].
Lemma find_case : exists out, find_boundary_intersections distinct_hits demo_unit demo_rat [] (qc 1 1000000) = Ok out /\ length out = 2%nat.
Proof.
  assert (match find_boundary_intersections distinct_hits demo_unit demo_rat [] (qc 1 1000000) with Ok out => Nat.eqb (length out) 2 | _ => false end = true) as M
    by (vm_compute; reflexivity).
  destruct (find_boundary_intersections distinct_hits demo_unit demo_rat [] (qc 1 1000000)) as [out| |]; try discriminate.
  exists out. split; [reflexivity|]. apply Nat.eqb_eq. exact M.
Qed.

(** ** Grouping *)
Definition bp (x y z : Z) : ipoint := ip_make (v3i x y z) 0 (0, 0) 0 true ((0, 1), (0, 1)).
Definition five : list ipoint := [bp 0 0 0; bp 9 0 0; bp 1 0 0; bp 10 0 0; bp 5 5 5].
(** squared length, for comparison as good as the length *)
Definition len_sq (v : vec3) : option Qc := Some (v3sq v).
Lemma five_finite : finite_gaps len_sq five.
Proof.
  intros i j Hi Hj. unfold gap. destruct (nth_some five i Hi) as (p & ->). destruct (nth_some five j Hj) as (q & ->). discriminate.
Qed.
Lemma five_case : sort_boundary_intersections len_sq five [] = Ok [[bp 0 0 0; bp 1 0 0]; [bp 9 0 0; bp 10 0 0]; [bp 5 5 5]].
Proof. vm_compute. reflexivity. Qed.

(** a length that overflows *)
Definition len_overflow (v : vec3) : option Qc := None.
Lemma overflow_case : sort_boundary_intersections len_overflow [bp 0 0 0; bp 9 0 0] [] = Ok [[bp 0 0 0]; [bp 9 0 0]].
Proof. vm_compute. reflexivity. Qed.
