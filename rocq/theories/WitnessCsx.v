(** Concrete curves and surfaces for the properties of curve-surface intersection. *)
From Coq Require Import List ZArith QArith Qcanon Lqa Lia Bool.
From Verif Require Import Base BaseFacts ModelVec ModelAabb ModelNurbs ModelSurface ModelPolygon ModelGjk ModelCsx SpecAabb SpecNurbs SpecCurve SpecSurface SpecCcx SpecGjk SpecCsx
  ProofAabb ProofBspline ProofCurve ProofMinimize ProofHull ProofPolygon ProofDecompose ProofCcx ProofCcxTop ProofCcxBezier ProofClosest ProofGjk ProofCsxPieces ProofCsx ProofCsxTop
  WitnessNumeric WitnessNurbs WitnessSurface WitnessGjk WitnessCcx.
Import ListNotations.
Open Scope Qc_scope.

(** ** Bezier knots can be cut anywhere *)
Lemma cut_inside answer a b lo hi : a <= b -> cut_down answer a b lo hi -> a <= lo /\ lo <= hi /\ hi <= b.
Proof.
  intros AB H. induction H as [|lo hi t H (A & B & C) (T1 & T2 & _)|lo hi t H (A & B & C) (T1 & T2 & _)].
  - repeat split; try apply Qcle_refl; assumption.
  - repeat split; qc_lra.
  - repeat split; qc_lra.
Qed.
Lemma cuttable_bezier answer p a b : (1 <= p)%nat -> a < b -> cuttable_knots answer p p (repeat a (p + 1) ++ repeat b (p + 1)).
Proof.
  intros P AB. destruct (knot_bez a b p) as [L R]. unfold cuttable_knots. rewrite (L 0%nat) by lia. rewrite (R (p + 1)%nat) by lia.
  split; [split; intros i Hi; [rewrite !L by lia; reflexivity|intros Hi'; rewrite !R by lia; reflexivity]|]. split; [exact P|].
  assert (forall k, In k (repeat a (p + 1) ++ repeat b (p + 1)) -> k = a \/ k = b) as IN.
  { intros k Hk. apply in_app_or in Hk. destruct Hk as [H|H]; apply repeat_spec in H; auto. }
  split.
  - intros t A B. rewrite mult_not; [lia|]. intros H. destruct (IN t H) as [-> | ->]; [exact (Qclt_irrefl _ A)|exact (Qclt_irrefl _ B)].
  - intros lo hi t k C _ Hk A B. exfalso. destruct (cut_inside _ _ _ _ _ ltac:(apply Qclt_le_weak; exact AB) C) as (X & _ & Y).
    destruct (IN k Hk) as [-> | ->]; qc_lra.
Qed.

Definition bez01 : list Qc := [0; 0; 1; 1].
Lemma cuttable_bez01 answer : cuttable_knots answer 1 1 bez01.
Proof. apply (cuttable_bezier answer 1 0 1); [lia|reflexivity]. Qed.

(** the square [-4,4]^2 at height 0, over [0,1]^2 *)
Definition floor_rows : list (list vec4) :=
  [[V4 (qc (-4) 1) (qc (-4) 1) 0 1; V4 (qc (-4) 1) (qc 4 1) 0 1]; [V4 (qc 4 1) (qc (-4) 1) 0 1; V4 (qc 4 1) (qc 4 1) 0 1]].
Definition floor_over (h : Qc) : nsurf := get_ok ns_none (ns_make floor_rows 1 1 [0; 0; h; h] [0; 0; h; h]).
Definition floor1 : nsurf := floor_over 1.
(** segments through and onto the square *)
Definition pole : ncurve := get_ok nc_default (nc_make3 [V3 1 (qc 2 1) (qc (-1) 1); V3 1 (qc 2 1) (qc 3 1)] 1 false).
Definition post : ncurve := get_ok nc_default (nc_make3 [V3 1 (qc 2 1) 0; V3 1 (qc 2 1) (qc 4 1)] 1 false).

Lemma cuttable_surf_b answer_u answer_v s : ns_du s = 1%nat -> ns_dv s = 1%nat -> list_eqb (ns_ku s) bez01 && list_eqb (ns_kv s) bez01 = true ->
  good_surf_b s 1 1 = true -> weights_b s (fun w => 0 <? w) = true -> pair_eqb (ns_iu s) (0, 1) && pair_eqb (ns_iv s) (0, 1) = true ->
  cuttable_surf answer_u answer_v s.
Proof.
  intros D1 D2 K G W I. apply andb_true_iff in K, I. destruct K as [K1 K2], I as [I1 I2]. apply list_eqb_ok in K1, K2. apply pair_eqb_ok in I1, I2.
  exists 1%nat, 1%nat. split; [apply good_surf_b_ok; exact G|]. split; [apply pos_b; exact W|].
  split; [split; [rewrite I1, K1|rewrite I2, K2]; reflexivity|]. rewrite D1, D2, K1, K2. split; apply cuttable_bez01.
Qed.
Lemma cuttable_segment answer c : nc_degree c = 1%nat -> list_eqb (nc_knots c) bez01 = true -> good_b c 1 = true ->
  forallb (fun q => ww q =? 1) (nc_cps c) = true -> pair_eqb (nc_interval c) (0, 1) = true -> cuttable_curve answer c.
Proof.
  intros D K G W I. apply list_eqb_ok in K. apply pair_eqb_ok in I. exists 1%nat. split; [apply good_b_ok; exact G|].
  split; [intros q Hq; rewrite forallb_forall in W; specialize (W q Hq); qcb; exact W|].
  split; [unfold interval_current; rewrite I, K; reflexivity|]. rewrite D, K. apply cuttable_bez01.
Qed.
Lemma floor1_cuttable au av : cuttable_surf au av floor1.
Proof. apply cuttable_surf_b; vm_compute; reflexivity. Qed.
Lemma pole_cuttable a : cuttable_curve a pole. Proof. apply cuttable_segment; vm_compute; reflexivity. Qed.
Lemma post_cuttable a : cuttable_curve a post. Proof. apply cuttable_segment; vm_compute; reflexivity. Qed.

Definition no_degenerate (_ : ncurve) (_ : nsurf) (_ : params) : res bool := Ok false.
Definition never_apart (_ _ : list vec3) : res bool := Ok false.
Definition always_separable (_ : vec3) (_ _ : list vec3) : res bool := Ok true.
Definition pole_newton (_ : ncurve) (_ : nsurf) : res params := Ok (qc 1 4, qc 5 8, qc 3 4).
Definition four_long (_ : ncurve) : res Qc := Ok (qc 4 1).
Definition milli : Qc := qc 1 1000.

Lemma at_most_l1 tol : 0 <= tol -> at_most len_l1 tol tol.
Proof.
  intros T a b l E H. unfold len_l1 in E. assert (l = Qcabs (vx (v3sub a b)) + Qcabs (vy (v3sub a b)) + Qcabs (vz (v3sub a b))) as -> by congruence.
  assert (v3distSq a b = Qcabs (vx (v3sub a b)) * Qcabs (vx (v3sub a b)) + Qcabs (vy (v3sub a b)) * Qcabs (vy (v3sub a b)) + Qcabs (vz (v3sub a b)) * Qcabs (vz (v3sub a b))) as ->.
  { rewrite !abs_square. unfold v3distSq, v3sq. reflexivity. }
  eapply Qcle_trans; [apply l1_parts; apply abs_nonneg|]. 
  pose proof (abs_nonneg (vx (v3sub a b))). pose proof (abs_nonneg (vy (v3sub a b))). pose proof (abs_nonneg (vz (v3sub a b))).
  apply (sq_between 0); qc_lra.
Qed.

Definition pole_hits : list csx_int := get_ok [] (match csx len_l1 pole_newton no_degenerate never_apart always_separable four_long 1 pole floor1 milli with Some r => r | None => UB end).
Lemma pole_found : csx len_l1 pole_newton no_degenerate never_apart always_separable four_long 1 pole floor1 milli = Some (Ok pole_hits) /\ length pole_hits = 1%nat.
Proof. split; vm_compute; reflexivity. Qed.

(** a solver that gives the crossing of [pole] only well inside the interval *)
Definition inner_newton (c : ncurve) (_ : nsurf) : res params :=
  if (tol12 <? qc 1 4 - fst (nc_interval c)) && (tol12 <? snd (nc_interval c) - qc 1 4) then Ok (qc 1 4, qc 5 8, qc 3 4)
  else Ok (fst (nc_interval c) - 1, qc 5 8, qc 3 4).
Lemma inner_newton_inside : forall q w t u v, inner_newton q w = Ok (t, u, v) -> fst (nc_interval q) <= t -> t <= snd (nc_interval q) ->
  tol12 < t - fst (nc_interval q) /\ tol12 < snd (nc_interval q) - t.
Proof.
  intros q w t u v. unfold inner_newton. destruct (_ && _) eqn:E; intros H A B; apply Ok_inj in H; apply (f_equal (fun x => fst (fst x))) in H; cbn [fst] in H; subst t.
  - apply andb_true_iff in E. destruct E. qcb. auto.
  - exfalso. clear - A. qc_lra.
Qed.
Lemma inner_case : answers3 inner_newton /\ answering no_degenerate /\ answers_sets never_apart /\ answering always_separable /\
  tol7 < milli * (snd (nc_interval pole) - fst (nc_interval pole)) / qc 4 1 /\
  exists hits, csx len_l1 inner_newton no_degenerate never_apart always_separable four_long 1 pole floor1 milli = Some (Ok hits) /\ length hits = 1%nat.
Proof.
  split; [intros c s; unfold inner_newton; destruct (_ && _); eexists; reflexivity|]. split; [intros a b c; eexists; reflexivity|].
  split; [intros a b _ _; eexists; reflexivity|]. split; [intros a b c; eexists; reflexivity|]. split; [vm_compute; reflexivity|].
  eexists. split; [vm_compute; reflexivity|]. reflexivity.
Qed.

(** ** Tests *)
Definition hull_b (P : list vec3) (ws : list Qc) (p : vec3) : bool :=
  forallb (fun w => 0 <=? w) ws && Nat.eqb (length ws) (length P) && Qceqb (qsum (fun i => nth i ws 0) (length P)) 1 &&
  v3eqb p (V3 (qsum (fun i => nth i ws 0 * vx (pt3 P i)) (length P)) (qsum (fun i => nth i ws 0 * vy (pt3 P i)) (length P)) (qsum (fun i => nth i ws 0 * vz (pt3 P i)) (length P))).
Lemma hull_b_ok P ws p : hull_b P ws p = true -> in_hull3 P p.
Proof.
  unfold hull_b. rewrite !andb_true_iff. intros (((A & B) & C) & D). apply v3eqb_ok in D. qcb. exists (fun i => nth i ws 0). split.
  - intros i. rewrite forallb_forall in A. destruct (Nat.lt_ge_cases i (length ws)) as [H|H].
    + specialize (A _ (nth_In ws 0 H)). qcb. exact A.
    + rewrite nth_overflow by exact H. apply Qcle_refl.
  - split; [exact C|]. rewrite D. cbn [vx vy vz]. auto.
Qed.

Lemma near_far ptol x a : ptol <= Qcabs (x - a) -> near_to ptol x a = false.
Proof. intros H. unfold near_to. destruct (Qcltb_spec (Qcabs (x - a)) ptol) as [L|L]; [|reflexivity]. exfalso. qc_lra. Qed.
Lemma border_far ptol s u v lo hi lo' hi' : ns_iu s = (lo, hi) -> ns_iv s = (lo', hi') ->
  ptol <= Qcabs (u - lo) -> ptol <= Qcabs (u - hi) -> ptol <= Qcabs (v - lo') -> ptol <= Qcabs (v - hi') -> at_border ptol s u v = false.
Proof. intros E1 E2 A B C D. unfold at_border. rewrite E1, E2. cbn [fst snd]. rewrite !near_far by assumption. reflexivity. Qed.

(** a roof through the square: two crossings *)
Definition roof : ncurve := get_ok nc_default (nc_make3 [V3 (qc (-2) 1) (qc (-1) 2) (qc (-1) 1); V3 0 0 1; V3 (qc 2 1) (qc 1 2) (qc (-1) 1)] 1 false).
Definition roof1 : vec3 := V3 (qc (-1) 1) (qc (-1) 4) 0.
Definition roof2 : vec3 := V3 1 (qc 1 4) 0.


Definition floor_pts : list vec3 := [V3 (qc (-4) 1) (qc (-4) 1) 0; V3 (qc (-4) 1) (qc 4 1) 0; V3 (qc 4 1) (qc (-4) 1) 0; V3 (qc 4 1) (qc 4 1) 0].
Definition okl (r : res (list vec3)) (m : list vec3) : bool := match r with Ok l => v3leqb l m | _ => false end.
Lemma okl_ok r m : okl r m = true -> r = Ok m.
Proof. destruct r; try discriminate. intros H. apply v3leqb_ok in H. congruence. Qed.
Lemma floor_flat : flat3d floor1 = Ok floor_pts. Proof. apply okl_ok. vm_compute. reflexivity. Qed.
Lemma floor1_iu : ns_iu floor1 = (0, 1). Proof. apply pair_eqb_ok. vm_compute. reflexivity. Qed.
Lemma floor1_iv : ns_iv floor1 = (0, 1). Proof. apply pair_eqb_ok. vm_compute. reflexivity. Qed.

Lemma milli_nonneg : 0 <= milli. Proof. discriminate. Qed.
(** one call that finds a crossing *)
Lemma no_new_false apart c P : exact_apart apart -> points3d c = Ok P -> aabb_test P floor_pts = Ok false -> hulls_meet3 P floor_pts ->
  no_new apart c floor1 = Ok false.
Proof. intros A E T H. unfold no_new. rewrite E, floor_flat. cbn [bind]. rewrite T. cbn [bind]. apply A, H. Qed.
Lemma find_new_hit len newton tol c s t u v p : len (V3 0 0 0) = Some 0 -> 0 <= tol -> newton c s = Ok (t, u, v) -> valid_parameter (t, u, v) c s = true ->
  evaluate c t = Ok p -> ns_evaluate s u v = Ok p -> find_new len newton tol c s = Ok (Some (p, (t, u, v))).
Proof.
  intros L T N V E1 E2. unfold find_new. rewrite N. cbn [bind]. rewrite V, E1, E2. cbn [bind].
  assert (v3sub p p = V3 0 0 0) as -> by (destruct p as [x y z]; unfold v3sub; cbn [vx vy vz]; f_equal; ring). rewrite L.
  assert ((0 <=? tol) = true) as -> by (qcb; exact T). reflexivity.
Qed.
Lemma floor_middle ptol : ptol <= qc 1 100 -> at_border ptol floor1 ((fst (ns_iu floor1) + snd (ns_iu floor1)) * qc 1 2) ((fst (ns_iv floor1) + snd (ns_iv floor1)) * qc 1 2) = false.
Proof.
  intros P. rewrite floor1_iu, floor1_iv. apply (border_far ptol floor1 _ _ 0 1 0 1 floor1_iu floor1_iv); cbn [fst snd]; (eapply Qcle_trans; [exact P|vm_compute; discriminate]).
Qed.
Lemma not_short ptol lo hi iv : ptol <= qc 1 100 -> iv = (lo, hi) -> qc 1 100 <= Qcabs (hi - lo) -> short ptol iv = false.
Proof. intros P -> H. unfold short. cbn [fst snd]. destruct (Qcltb_spec (Qcabs (hi - lo)) ptol) as [X|X]; [|reflexivity]. exfalso. qc_lra. Qed.
Lemma ptol_small L k : 1 <= L -> 0 <= k -> milli * k / L <= milli * k.
Proof.
  intros HL HK. assert (0 <= milli * k) as M by (apply ProofMinimize.Qcmul_nonneg; [discriminate|exact HK]).
  apply ProofSurfaceTop.Qcdiv_le_l; [qc_lra|]. set (m := milli * k) in *. clearbody m. clear HK. pose proof (ProofMinimize.Qcmul_nonneg m (L - 1) M ltac:(qc_lra)) as H.
  replace (m * (L - 1)) with (m * L - m) in H by ring. revert H. generalize (m * L). intros x H. qc_lra.
Qed.

Lemma post_facts : points3d post = Ok [V3 1 (qc 2 1) 0; V3 1 (qc 2 1) (qc 4 1)] /\ nc_interval post = (0, 1) /\
  evaluate post 0 = Ok (V3 1 (qc 2 1) 0) /\ ns_evaluate floor1 (qc 5 8) (qc 3 4) = Ok (V3 1 (qc 2 1) 0) /\
  hulls_meet3 [V3 1 (qc 2 1) 0; V3 1 (qc 2 1) (qc 4 1)] floor_pts.
Proof.
  split; [apply okl_ok; vm_compute; reflexivity|]. split; [apply pair_eqb_ok; vm_compute; reflexivity|]. split; [apply okv_ok; vm_compute; reflexivity|].
  split; [apply okv_ok; vm_compute; reflexivity|]. exists (V3 1 (qc 2 1) 0).
  split; [apply (hull_b_ok _ [1; 0])|apply (hull_b_ok _ [qc 3 32; qc 9 32; qc 5 32; qc 15 32])]; vm_compute; reflexivity.
Qed.

Lemma post_throws len newton degenerate apart separable curve_length L fuel :
  len (V3 0 0 0) = Some 0 -> newton post floor1 = Ok (0, qc 5 8, qc 3 4) -> answering degenerate -> exact_apart apart ->
  curve_length post = Ok L -> 1 <= L ->
  csx len newton degenerate apart separable curve_length (S fuel) post floor1 milli = Some (Throw EInvalidArgument).
Proof.
  intros L0 N D A EL HL. destruct post_facts as (F1 & F2 & F3 & F4 & F5).
  assert (L <> 0) as NL by (intros ->; apply HL; reflexivity).
  rewrite (csx_as len newton degenerate apart separable curve_length post floor1 milli L EL NL _ _ eq_refl). rewrite F2. cbn [fst snd].
  pose proof (ptol_small L (1 - 0) HL ltac:(vm_compute; discriminate)) as PT. set (ptol := milli * (1 - 0) / L) in *. clearbody ptol.
  assert (ptol <= qc 1 100) as PT' by (eapply Qcle_trans; [exact PT|vm_compute; discriminate]).
  cbn [csx_rec].
  rewrite (not_short ptol 0 1 (nc_interval post) PT' F2) by (vm_compute; discriminate).
  rewrite (not_short ptol 0 1 (ns_iu floor1) PT' floor1_iu) by (vm_compute; discriminate).
  rewrite (not_short ptol 0 1 (ns_iv floor1) PT' floor1_iv) by (vm_compute; discriminate). cbn [orb].
  rewrite (no_new_false apart post _ A F1) by (try exact F5; vm_compute; reflexivity). cbn [lift].
  rewrite (find_new_hit len newton milli post floor1 0 (qc 5 8) (qc 3 4) (V3 1 (qc 2 1) 0) L0 milli_nonneg N ltac:(vm_compute; reflexivity) F3 F4). cbn [lift].
  rewrite (floor_middle ptol PT'). destruct (D post floor1 (0, qc 5 8, qc 3 4)) as (d & ->). cbn [lift].
  rewrite (border_far ptol floor1 (qc 5 8) (qc 3 4) 0 1 0 1 floor1_iu floor1_iv); [|eapply Qcle_trans; [exact PT'|vm_compute; discriminate]..].
  rewrite (split_near post 0 0 1 F2) by (first [apply Qcle_refl|left; vm_compute; discriminate|vm_compute; discriminate]). reflexivity.
Qed.

Lemma roof_facts : points3d roof = Ok [V3 (qc (-2) 1) (qc (-1) 2) (qc (-1) 1); V3 0 0 1; V3 (qc 2 1) (qc 1 2) (qc (-1) 1)] /\ nc_interval roof = (0, qc 2 1) /\
  evaluate roof (qc 1 2) = Ok roof1 /\ ns_evaluate floor1 (qc 3 8) (qc 15 32) = Ok roof1 /\
  evaluate roof (qc 3 2) = Ok roof2 /\ ns_evaluate floor1 (qc 5 8) (qc 17 32) = Ok roof2 /\
  hulls_meet3 [V3 (qc (-2) 1) (qc (-1) 2) (qc (-1) 1); V3 0 0 1; V3 (qc 2 1) (qc 1 2) (qc (-1) 1)] floor_pts.
Proof.
  split; [apply okl_ok; vm_compute; reflexivity|]. split; [apply pair_eqb_ok; vm_compute; reflexivity|]. do 4 (split; [apply okv_ok; vm_compute; reflexivity|]).
  exists (V3 0 0 0). split; [apply (hull_b_ok _ [qc 1 4; qc 1 2; qc 1 4])|apply (hull_b_ok _ [qc 1 4; qc 1 4; qc 1 4; qc 1 4])]; vm_compute; reflexivity.
Qed.
Definition roof_parts : ncurve * ncurve := get_ok (nc_default, nc_default) (nc_split roof (qc 1 2) false).
Definition floor_parts : nsurf * nsurf * nsurf * nsurf := get_ok (ns_none, ns_none, ns_none, ns_none) (ns_subdivide_at floor1 (qc 3 8) (qc 15 32)).
Lemma get_ok_is {A} (d : A) r : match r with Ok _ => true | _ => false end = true -> r = Ok (get_ok d r).
Proof. destruct r; try discriminate. reflexivity. Qed.
Lemma roof_split : nc_split roof (qc 1 2) false = Ok roof_parts. Proof. apply get_ok_is. vm_compute. reflexivity. Qed.
Lemma floor_split : ns_subdivide_at floor1 (qc 3 8) (qc 15 32) = Ok floor_parts. Proof. apply get_ok_is. vm_compute. reflexivity. Qed.

(** the first part of the roof meets what lies at height 0 in one point only *)
Definition first_part : list vec3 := [V3 (qc (-2) 1) (qc (-1) 2) (qc (-1) 1); roof1].
Lemma first_part_meets B : (forall q, In q B -> vz q = 0) -> meet_only_at roof1 first_part B.
Proof.
  intros H x HA HB. apply hull3_two in HA. destruct HA as (t & T0 & T1 & ->).
  assert (forall q, v3dot q (V3 0 0 1) = vz q) as D by (intros q; unfold v3dot; cbn [vx vy vz]; ring).
  assert (vz (v3add (v3scale roof1 (1 - t)) (v3scale (V3 (qc (-2) 1) (qc (-1) 2) (qc (-1) 1)) t)) = 0) as Z.
  { apply Qcle_antisym; rewrite <- D; [apply (hull_half3 _ _ _ _ HB)|apply (hull_half3_lo _ _ _ _ HB)]; intros q Hq; rewrite D, (H q Hq); apply Qcle_refl. }
  unfold v3add, v3scale, roof1 in *. cbn [vx vy vz] in *.
  assert (t = 0) as ->. { apply Qcle_antisym; [|exact T0]. assert (0 * (1 - t) + qc (-1) 1 * t = - t) as E by (replace (qc (-1) 1) with (- (1)) by (apply Qc_is_canon; reflexivity); ring). rewrite E in Z. qc_lra. }
  f_equal; ring.
Qed.
Definition flat_b (r : res (list vec3)) : bool := match r with Ok l => forallb (fun q => vz q =? 0) l | _ => false end.
Lemma flat_b_ok r : flat_b r = true -> exists B, r = Ok B /\ forall q, In q B -> vz q = 0.
Proof. destruct r as [B| |]; try discriminate. cbn [flat_b]. rewrite forallb_forall. intros H. exists B. split; [reflexivity|]. intros q Hq. specialize (H q Hq). qcb. exact H. Qed.

Lemma loop_skips separable rec p c1 c2 A patches hits : recognises separable -> points3d c1 = Ok A ->
  (forall s, In s patches -> exists B, flat3d s = Ok B /\ meet_only_at p A B) -> csx_loop separable rec p c1 c2 patches hits = Some (Ok hits).
Proof.
  intros R E. induction patches as [|s rest IH]; intros H; [reflexivity|]. cbn [csx_loop]. rewrite E. cbn [lift].
  destruct (H s (or_introl eq_refl)) as (B & -> & M). cbn [lift]. rewrite (R p A B M). cbn [lift]. apply IH. intros s' Hs. apply H. right. exact Hs.
Qed.

Lemma roof_misses len newton degenerate apart separable curve_length L fuel :
  len (V3 0 0 0) = Some 0 -> newton roof floor1 = Ok (qc 1 2, qc 3 8, qc 15 32) -> answering degenerate -> exact_apart apart -> recognises separable ->
  curve_length roof = Ok L -> 1 <= L ->
  exists d, csx len newton degenerate apart separable curve_length (S fuel) roof floor1 milli = Some (Ok [(d, roof1, (qc 1 2, qc 3 8, qc 15 32))]).
Proof.
  intros L0 N D A R EL HL. destruct roof_facts as (F1 & F2 & F3 & F4 & _ & _ & F5).
  assert (L <> 0) as NL by (intros ->; apply HL; reflexivity).
  rewrite (csx_as len newton degenerate apart separable curve_length roof floor1 milli L EL NL _ _ eq_refl). rewrite F2. cbn [fst snd].
  pose proof (ptol_small L (qc 2 1 - 0) HL ltac:(vm_compute; discriminate)) as PT. set (ptol := milli * (qc 2 1 - 0) / L) in *. clearbody ptol.
  assert (ptol <= qc 1 100) as PT' by (eapply Qcle_trans; [exact PT|vm_compute; discriminate]).
  cbn [csx_rec].
  rewrite (not_short ptol 0 (qc 2 1) (nc_interval roof) PT' F2) by (vm_compute; discriminate).
  rewrite (not_short ptol 0 1 (ns_iu floor1) PT' floor1_iu) by (vm_compute; discriminate).
  rewrite (not_short ptol 0 1 (ns_iv floor1) PT' floor1_iv) by (vm_compute; discriminate). cbn [orb].
  rewrite (no_new_false apart roof _ A F1) by (try exact F5; vm_compute; reflexivity). cbn [lift].
  rewrite (find_new_hit len newton milli roof floor1 (qc 1 2) (qc 3 8) (qc 15 32) roof1 L0 milli_nonneg N ltac:(vm_compute; reflexivity) F3 F4). cbn [lift].
  rewrite (floor_middle ptol PT'). destruct (D roof floor1 (qc 1 2, qc 3 8, qc 15 32)) as (d & ->). cbn [lift].
  rewrite (border_far ptol floor1 (qc 3 8) (qc 15 32) 0 1 0 1 floor1_iu floor1_iv); [|eapply Qcle_trans; [exact PT'|vm_compute; discriminate]..].
  rewrite roof_split. cbn [lift]. destruct roof_parts as [c1 c2] eqn:E1. rewrite floor_split. cbn [lift]. destruct floor_parts as [[[s1 s2] s3] s4] eqn:E2.
  exists d. rewrite (loop_skips separable _ roof1 c1 c2 first_part _ _ R); [reflexivity| |].
  - replace c1 with (fst roof_parts) by (rewrite E1; reflexivity). apply okl_ok. vm_compute. reflexivity.
  - replace s1 with (fst (fst (fst floor_parts))) by (rewrite E2; reflexivity). replace s2 with (snd (fst (fst floor_parts))) by (rewrite E2; reflexivity).
    replace s3 with (snd (fst floor_parts)) by (rewrite E2; reflexivity). replace s4 with (snd floor_parts) by (rewrite E2; reflexivity).
    intros s [<-|[<-|[<-|[<-|[]]]]]; (match goal with |- exists B, flat3d ?x = _ /\ _ => assert (flat_b (flat3d x) = true) as H by (vm_compute; reflexivity) end;
      apply flat_b_ok in H; destruct H as (B & -> & H); exists B; split; [reflexivity|apply first_part_meets; exact H]).
Qed.

(** ** The same surface over a small square of parameters *)
Definition tiny : Qc := qc 1 2500.
Definition floor2 : nsurf := floor_over tiny.
Definition scaled_knots (h : Qc) (U V : list Qc) : Prop := V = map (Qcmult h) U.
Lemma floor2_iu : ns_iu floor2 = (0, tiny) /\ ns_iv floor2 = (0, tiny). Proof. split; apply pair_eqb_ok; vm_compute; reflexivity. Qed.
Lemma within_b iv x : (fst iv <=? x) && (x <=? snd iv) = true -> within iv x.
Proof. rewrite andb_true_iff. intros [A B]. qcb. split; assumption. Qed.
Lemma crosses_b c s t u v p : (fst (nc_interval c) <=? t) && (t <=? snd (nc_interval c)) = true -> (fst (ns_iu s) <=? u) && (u <=? snd (ns_iu s)) = true ->
  (fst (ns_iv s) <=? v) && (v <=? snd (ns_iv s)) = true -> okv (evaluate c t) p && okv (ns_evaluate s u v) p = true -> crosses_at c s t u v p.
Proof.
  intros A B C D. apply andb_true_iff in D. destruct D as [D1 D2]. split; [apply within_b, A|]. split; [apply within_b, B|]. split; [apply within_b, C|].
  split; apply okv_ok; assumption.
Qed.
Definition hit_eqb (a b : csx_int) : bool :=
  let '(d, p, (t, u, v)) := a in let '(d', p', (t', u', v')) := b in Bool.eqb d d' && v3eqb p p' && (t =? t') && (u =? u') && (v =? v').
Lemma hit_eqb_ok a b : hit_eqb a b = true -> a = b.
Proof.
  destruct a as [[d p] [[t u] v]], b as [[d' p'] [[t' u'] v']]. unfold hit_eqb. rewrite !andb_true_iff. intros ((((A & B) & C) & D) & E).
  apply eqb_prop in A. apply v3eqb_ok in B. qcb. subst. reflexivity.
Qed.
Lemma hits_ok r h : match r with Some (Ok [x]) => hit_eqb x h | _ => false end = true -> r = Some (Ok [h]).
Proof. destruct r as [[[|x [|]]| |]|]; try discriminate. intros H. apply hit_eqb_ok in H. congruence. Qed.

Lemma reparam_witness : exists c s s' h tol t u v p,
  0 < h /\ 0 < tol /\ ns_cps s' = ns_cps s /\ ns_du s' = ns_du s /\ ns_dv s' = ns_dv s /\
  ns_ku s' = map (Qcmult h) (ns_ku s) /\ ns_kv s' = map (Qcmult h) (ns_kv s) /\
  crosses_at c s t u v p /\ crosses_at c s' t (h * u) (h * v) p /\
  (exists len newton degenerate apart separable curve_length d, exact_on_axes len /\ curve_length c = Ok (qc 4 1) /\ exact_apart apart /\ recognises separable /\
     forall fuel, csx len newton degenerate apart separable curve_length (S fuel) c s tol = Some (Ok [(d, p, (t, u, v))])) /\
  (forall len newton degenerate apart separable curve_length fuel hits, curve_length c = Ok (qc 4 1) ->
     csx len newton degenerate apart separable curve_length fuel c s' tol = Some (Ok hits) -> hits = []).
Proof.
  exists pole, floor1, floor2, tiny, milli, (qc 1 4), (qc 5 8), (qc 3 4), (V3 1 (qc 2 1) 0).
  split; [reflexivity|]. split; [reflexivity|]. split; [vm_compute; reflexivity|]. split; [reflexivity|]. split; [reflexivity|].
  split; [apply list_eqb_ok; vm_compute; reflexivity|]. split; [apply list_eqb_ok; vm_compute; reflexivity|].
  split; [apply crosses_b; vm_compute; reflexivity|]. split; [apply crosses_b; vm_compute; reflexivity|]. split.
  - exists len_l1, pole_newton, no_degenerate, never_apart, always_separable, four_long, false.
    split; [exact len_l1_axes|]. split; [reflexivity|]. split; [intros A B _; reflexivity|]. split; [intros p A B _; reflexivity|].
    intros fuel. apply hits_ok. vm_compute. reflexivity.
  - intros len newton degenerate apart separable curve_length fuel hits EL E. 
    apply (csx_small_interval len newton degenerate apart separable curve_length fuel pole floor2 milli (qc 4 1) hits EL); [discriminate| |exact E].
    left. destruct floor2_iu as [-> _]. cbn [fst snd]. split; vm_compute; [discriminate|reflexivity].
Qed.

(** ** The spherical test *)
Lemma spherical_witness : exists A B p, in_hull3 A p /\ In p B /\ p <> V3 0 0 1 /\
  forall len sort keep, (forall v l, In v (A ++ B) -> 0 <= l -> v3sq v = l * l -> len v = Some l) ->
    spherical_test len sort keep (V3 0 0 1) A B = Ok true.
Proof.
  exists [V3 (qc 2 1) 0 0; V3 (qc 14 25) (qc 48 25) 0], [V3 (qc 32 25) (qc 24 25) 0], (V3 (qc 32 25) (qc 24 25) 0).
  split; [apply (hull_b_ok _ [qc 1 2; qc 1 2]); vm_compute; reflexivity|]. split; [left; reflexivity|]. split; [discriminate|].
  intros len sort keep H. unfold spherical_test. cbn [mapM]. unfold vunit.
  rewrite (H (V3 (qc 2 1) 0 0) (qc 2 1)) by (first [left; reflexivity|discriminate|apply Qc_is_canon; vm_compute; reflexivity]).
  rewrite (H (V3 (qc 14 25) (qc 48 25) 0) (qc 2 1)) by (first [right; left; reflexivity|discriminate|apply Qc_is_canon; vm_compute; reflexivity]).
  rewrite (H (V3 (qc 32 25) (qc 24 25) 0) (qc 8 5)) by (first [right; right; left; reflexivity|discriminate|apply Qc_is_canon; vm_compute; reflexivity]).
  vm_compute. reflexivity.
Qed.

(** ** Central projection *)
Lemma projection_witness : exists o p q, o <> p /\ center_projection o p = Ok q /\ forall k, V3 (ux q) (uy q) 0 <> v3add o (v3scale (v3sub p o) k).
Proof.
  exists (V3 0 0 1), (V3 1 0 1), (V2 1 0). split; [discriminate|]. split; [reflexivity|].
  intros k E. apply (f_equal vz) in E. unfold v3add, v3scale, v3sub in E. cbn [vx vy vz] in E.
  assert (1 + (1 - 1) * k = 1) as E' by ring. rewrite E' in E. discriminate.
Qed.
Lemma projection_case : center_projection (V3 0 0 (qc 2 1)) (V3 1 1 1) = Ok (V2 (qc 2 1) (qc 2 1)).
Proof.
  assert (forall r x y, match r with Ok q => (ux q =? x) && (uy q =? y) | _ => false end = true -> r = Ok (V2 x y)) as H.
  { intros [[a b]| |] x y; try discriminate. cbn [ux uy]. rewrite andb_true_iff. intros [A B]. qcb. congruence. }
  apply H. vm_compute. reflexivity.
Qed.

(** ** Statements *)
Lemma post_witness : exists c s tol p, 0 < tol /\ (forall answer, cuttable_curve answer c) /\ (forall au av, cuttable_surf au av s) /\ crosses_at c s 0 (qc 5 8) (qc 3 4) p /\
  forall len newton degenerate apart separable curve_length L fuel,
  len (V3 0 0 0) = Some 0 -> newton c s = Ok (0, qc 5 8, qc 3 4) -> answering degenerate -> exact_apart apart -> curve_length c = Ok L -> 1 <= L ->
  csx len newton degenerate apart separable curve_length (S fuel) c s tol = Some (Throw EInvalidArgument).
Proof.
  exists post, floor1, milli, (V3 1 (qc 2 1) 0). split; [reflexivity|]. split; [exact post_cuttable|]. split; [exact floor1_cuttable|].
  split; [apply crosses_b; vm_compute; reflexivity|]. exact post_throws.
Qed.
Lemma roof_witness : exists c s tol n m t1 u1 v1 p1 t2 u2 v2 p2,
  0 < tol /\ good_curve c n /\ unit_weights (nc_cps c) /\ interval_current c /\ good_surf s m m /\ unit_surf s /\ intervals_current s /\
  crosses_at c s t1 u1 v1 p1 /\ crosses_at c s t2 u2 v2 p2 /\ p1 <> p2 /\
  forall len newton degenerate apart separable curve_length L fuel,
  len (V3 0 0 0) = Some 0 -> newton c s = Ok (t1, u1, v1) -> answering degenerate -> exact_apart apart -> recognises separable ->
  curve_length c = Ok L -> 1 <= L ->
  exists d, csx len newton degenerate apart separable curve_length (S fuel) c s tol = Some (Ok [(d, p1, (t1, u1, v1))]).
Proof.
  exists roof, floor1, milli, 2%nat, 1%nat, (qc 1 2), (qc 3 8), (qc 15 32), roof1, (qc 3 2), (qc 5 8), (qc 17 32), roof2.
  split; [reflexivity|]. split; [apply good_b_ok; vm_compute; reflexivity|]. split; [intros q [<-|[<-|[<-|[]]]]; reflexivity|].
  split; [apply pair_eqb_ok; vm_compute; reflexivity|]. split; [apply good_surf_b_ok; vm_compute; reflexivity|]. split; [apply unit_b; vm_compute; reflexivity|].
  split; [split; apply pair_eqb_ok; vm_compute; reflexivity|]. split; [apply crosses_b; vm_compute; reflexivity|]. split; [apply crosses_b; vm_compute; reflexivity|].
  split; [vm_compute; discriminate|]. exact roof_misses.
Qed.
Lemma pole_first_case : let ptol := milli * (snd (nc_interval pole) - fst (nc_interval pole)) / qc 4 1 in
  four_long pole = Ok (qc 4 1) /\ ptol <= snd (nc_interval pole) - fst (nc_interval pole) /\ 0 <= ptol /\
  qc 2 1 * ptol <= snd (ns_iu floor1) - fst (ns_iu floor1) /\ qc 2 1 * ptol <= snd (ns_iv floor1) - fst (ns_iv floor1) /\
  no_new never_apart pole floor1 = Ok false /\ pole_newton pole floor1 = Ok (qc 1 4, qc 5 8, qc 3 4) /\
  crosses_at pole floor1 (qc 1 4) (qc 5 8) (qc 3 4) (V3 1 (qc 2 1) 0) /\ len_l1 (V3 0 0 0) = Some 0.
Proof.
  cbv zeta. split; [reflexivity|]. do 4 (split; [vm_compute; discriminate|]). split; [vm_compute; reflexivity|]. split; [reflexivity|].
  split; [apply crosses_b; vm_compute; reflexivity|]. unfold len_l1. cbn [vx vy vz]. rewrite abs_zero. f_equal; ring.
Qed.
Lemma floor2_case : four_long pole = Ok (qc 4 1) /\ 0 <= snd (ns_iu floor2) - fst (ns_iu floor2) /\
  snd (ns_iu floor2) - fst (ns_iu floor2) < qc 2 1 * (milli * (snd (nc_interval pole) - fst (nc_interval pole)) / qc 4 1) /\
  csx len_l1 pole_newton no_degenerate never_apart always_separable four_long 1 pole floor2 milli = Some (Ok []).
Proof. split; [reflexivity|]. split; [vm_compute; discriminate|]. split; vm_compute; reflexivity. Qed.
