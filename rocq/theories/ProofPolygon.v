(** Soundness of the separating-axis tests. *)
From Coq Require Import List ZArith QArith Qcanon Bool Lia Lqa Field.
From Verif Require Import Base BaseFacts LoopFacts ModelVec ModelAabb ModelPolygon SpecNurbs SpecPolygon ProofBspline ProofMinimize ProofIntegrate.
Import ListNotations.
Open Scope Qc_scope.

Lemma v2_eq (a b : vec2) : ux a = ux b -> uy a = uy b -> a = b.
Proof. destruct a, b; cbn; intros -> ->; reflexivity. Qed.

Lemma v2_inj a b c d : V2 a b = V2 c d -> a = c /\ b = d.
Proof. intros H. split; [exact (f_equal ux H)|exact (f_equal uy H)]. Qed.

(** ** hulls and half-planes *)
Lemma hull_half P p d c : in_hull P p -> (forall q, In q P -> v2dot q d <= c) -> v2dot p d <= c.
Proof.
  intros (w & W & S1 & Ex & Ey) H. unfold v2dot. rewrite Ex, Ey.
  assert (qsum (fun i => w i * v2dot (pt P i) d) (length P) <= qsum (fun i => c * w i) (length P)) as L.
  { apply qsum_le. intros i Hi. pose proof (H (pt P i) (nth_In _ _ Hi)) as L. pose proof (Qcmul_nonneg (w i) (c - v2dot (pt P i) d) (W i) ltac:(qc_lra)). qc_lra. }
  rewrite qsum_scale, S1 in L.
  replace (qsum (fun i => w i * ux (pt P i)) (length P) * ux d + qsum (fun i => w i * uy (pt P i)) (length P) * uy d)
    with (qsum (fun i => w i * v2dot (pt P i) d) (length P)); [qc_lra|].
  transitivity (ux d * qsum (fun i => w i * ux (pt P i)) (length P) + uy d * qsum (fun i => w i * uy (pt P i)) (length P)); [|ring].
  rewrite <- !qsum_scale, <- qsum_add. apply qsum_ext. intros. unfold v2dot. ring.
Qed.
Lemma v2dot_neg p d : v2dot p (V2 (- ux d) (- uy d)) = - v2dot p d.
Proof. unfold v2dot. cbn. ring. Qed.
Lemma hull_half_lo P p d c : in_hull P p -> (forall q, In q P -> c <= v2dot q d) -> c <= v2dot p d.
Proof.
  intros H L. pose proof (hull_half P p (V2 (- ux d) (- uy d)) (- c) H) as X. rewrite v2dot_neg in X.
  cut (- v2dot p d <= - c); [intros; qc_lra|]. apply X. intros q Hq. rewrite v2dot_neg. specialize (L q Hq). qc_lra.
Qed.
Lemma vertex_in_hull P i : (i < length P)%nat -> in_hull P (pt P i).
Proof.
  intros H. exists (fun k => if Nat.eqb k i then 1 else 0).
  assert (forall (g : nat -> Qc) n, qsum (fun k => (if Nat.eqb k i then 1 else 0) * g k) n = if Nat.ltb i n then g i else 0) as E.
  { intros g. induction n; [reflexivity|]. cbn [qsum]. rewrite IHn. destruct (Nat.ltb_spec i n), (Nat.ltb_spec i (S n)), (Nat.eqb_spec n i); try lia; subst; ring. }
  split; [intros k; destruct (Nat.eqb k i); qc_lra|]. split; [|split; rewrite E; destruct (Nat.ltb_spec i (length P)); try lia; reflexivity].
  transitivity (qsum (fun k => (if Nat.eqb k i then 1 else 0) * 1) (length P)); [apply qsum_ext; intros; ring|]. rewrite E. destruct (Nat.ltb_spec i (length P)); [reflexivity|lia].
Qed.
Lemma point_in_hull P p : In p P -> in_hull P p.
Proof. intros H. destruct (In_nth _ _ (V2 0 0) H) as (i & Hi & <-). apply vertex_in_hull. exact Hi. Qed.

(** ** folds of min and max *)
Lemma Qcmin_lb a b : Qcmin a b <= a /\ Qcmin a b <= b.
Proof. unfold Qcmin. destruct (Qcltb_spec b a); split; qc_lra. Qed.
Lemma Qcmax_ub a b : a <= Qcmax a b /\ b <= Qcmax a b.
Proof. unfold Qcmax. destruct (Qcltb_spec a b); split; qc_lra. Qed.
Lemma Qcmin_in a b : Qcmin a b = a \/ Qcmin a b = b.
Proof. unfold Qcmin. destruct (Qcltb_spec b a); auto. Qed.
Lemma Qcmax_in a b : Qcmax a b = a \/ Qcmax a b = b.
Proof. unfold Qcmax. destruct (Qcltb_spec a b); auto. Qed.

Lemma fold_minmax {A} (f : A -> Qc) l : forall lo hi, let r := fold_left (fun mm p => let q := f p in (Qcmin (fst mm) q, Qcmax (snd mm) q)) l (lo, hi) in
  (fst r <= lo /\ forall p, In p l -> fst r <= f p) /\ (hi <= snd r /\ forall p, In p l -> f p <= snd r) /\
  (fst r = lo \/ exists p, In p l /\ fst r = f p) /\ (snd r = hi \/ exists p, In p l /\ snd r = f p).
Proof.
  induction l as [|a l IH]; intros lo hi r; cbn [fold_left] in r.
  - subst r. cbn. repeat split; try (intros ? []); try (left; reflexivity); qc_lra.
  - specialize (IH (Qcmin lo (f a)) (Qcmax hi (f a))). cbv zeta in IH. cbn [fst snd] in r. change (fold_left _ l _) with r in IH. clearbody r. destruct IH as ((A1 & A2) & (B1 & B2) & C & D).
    pose proof (Qcmin_lb lo (f a)) as (L1 & L2). pose proof (Qcmax_ub hi (f a)) as (U1 & U2).
    split; [split; [qc_lra|intros p [->|Hp]; [qc_lra|auto]]|]. split; [split; [qc_lra|intros p [->|Hp]; [qc_lra|auto]]|]. split.
    + destruct C as [C|(p & Hp & C)]; [|right; exists p; auto using in_cons]. rewrite C. destruct (Qcmin_in lo (f a)) as [->| ->]; [left; reflexivity|right; exists a; split; [left; reflexivity|reflexivity]].
    + destruct D as [D|(p & Hp & D)]; [|right; exists p; auto using in_cons]. rewrite D. destruct (Qcmax_in hi (f a)) as [->| ->]; [left; reflexivity|right; exists a; split; [left; reflexivity|reflexivity]].
Qed.
Lemma project_bounds P ax : (forall p, In p P -> fst (project_polygon P ax) <= v2dot p ax) /\ (forall p, In p P -> v2dot p ax <= snd (project_polygon P ax)).
Proof. pose proof (fold_minmax (fun p => v2dot p ax) P DBL_MAX DBL_LOWEST) as H. cbv zeta in H. fold (project_polygon P ax) in H. tauto. Qed.

(** ** polygonRelationship2D *)
Lemma axis_loop_none P1 P2 axes : forall t, axis_loop P1 P2 t axes = None <-> exists ax, In ax axes /\ check_overlap (project_polygon P1 ax) (project_polygon P2 ax) = false.
Proof.
  induction axes as [|a axes IH]; intros t; cbn [axis_loop]; [split; [discriminate|intros (? & [] & _)]|].
  destruct (check_overlap (project_polygon P1 a) (project_polygon P2 a)) eqn:E; cbn [negb].
  - rewrite IH. split; [intros (ax & H & X); exists ax; auto using in_cons|]. intros (ax & [->|H] & X); [congruence|]. exists ax. auto.
  - split; [|reflexivity]. intros _. exists a. split; [left; reflexivity|exact E].
Qed.
Lemma relationship_distance P1 P2 : polygon_relationship P1 P2 = DISTANCE <->
  exists ax, In ax (edge_axes P1 ++ edge_axes P2) /\ check_overlap (project_polygon P1 ax) (project_polygon P2 ax) = false.
Proof.
  unfold polygon_relationship. pose proof (axis_loop_none P1 P2 (edge_axes P1 ++ edge_axes P2) false) as H.
  destruct (axis_loop P1 P2 false _) as [t|]; [|tauto]. split; [|intros X; apply H in X; discriminate].
  destruct (_ || _)%bool; [discriminate|]. destruct t; discriminate.
Qed.
Lemma strict_apart P1 P2 d c1 c2 : (forall p, In p P1 -> v2dot p d <= c1) -> (forall q, In q P2 -> c2 <= v2dot q d) -> c1 < c2 -> ~ hulls_meet P1 P2.
Proof.
  intros A B L (x & H1 & H2). pose proof (hull_half _ _ _ _ H1 A). pose proof (hull_half_lo _ _ _ _ H2 B). qc_lra.
Qed.
Lemma meet_sym P Q : hulls_meet P Q -> hulls_meet Q P.
Proof. intros (p & A & B). exists p. auto. Qed.
Lemma overlap_false P1 P2 ax : check_overlap (project_polygon P1 ax) (project_polygon P2 ax) = false -> ~ hulls_meet P1 P2.
Proof.
  unfold check_overlap. rewrite andb_false_iff. pose proof (project_bounds P1 ax) as (A1 & A2). pose proof (project_bounds P2 ax) as (B1 & B2). intros [H|H].
  - intros M. apply meet_sym in M. revert M. apply (strict_apart _ _ ax _ _ B2 A1). qcb. exact H.
  - apply (strict_apart _ _ ax _ _ A2 B1). qcb. exact H.
Qed.
Lemma distance_sound : forall P1 P2, polygon_relationship P1 P2 = DISTANCE -> ~ hulls_meet P1 P2.
Proof. intros P1 P2 H. apply relationship_distance in H. destruct H as (ax & _ & H). exact (overlap_false _ _ _ H). Qed.

Lemma axis_loop_touch P1 P2 axes : forall t, axis_loop P1 P2 t axes = Some true -> t = true \/
  exists ax, In ax axes /\ (fst (project_polygon P1 ax) = snd (project_polygon P2 ax) \/ snd (project_polygon P1 ax) = fst (project_polygon P2 ax)).
Proof.
  induction axes as [|a axes IH]; intros t; cbn [axis_loop]; [intros [= ->]; left; reflexivity|].
  destruct (negb _); [discriminate|]. intros H. destruct (IH _ H) as [H1|(ax & H1 & H2)]; [|right; exists ax; auto using in_cons].
  apply orb_true_iff in H1. destruct H1 as [H1|H1]; [left; exact H1|]. right. exists a. split; [left; reflexivity|]. apply orb_true_iff in H1. destruct H1; qcb; auto.
Qed.

Lemma succ_lt P i : (i < length P)%nat -> (succ_in P i < length P)%nat.
Proof. unfold succ_in. destruct (Nat.eqb_spec (S i) (length P)); lia. Qed.
Lemma next_pairs_In P e : In e (next_pairs P) <-> exists i, (i < length P)%nat /\ e = (pt P i, pt P (succ_in P i)).
Proof.
  unfold next_pairs. destruct P as [|a t]; [cbn; split; [intros []|intros (i & H & _); lia]|].
  assert (length (t ++ [a]) = length (a :: t)) as L by (rewrite app_length; cbn; lia).
  assert (forall i, (i < length (a :: t))%nat -> nth i (t ++ [a]) (V2 0 0) = pt (a :: t) (succ_in (a :: t) i)) as N.
  { intros i Hi. unfold succ_in, pt. destruct (Nat.eqb_spec (S i) (length (a :: t))) as [E|E]; cbn [length] in *.
    - rewrite app_nth2 by lia. replace (i - length t)%nat with 0%nat by lia. reflexivity.
    - rewrite app_nth1 by lia. reflexivity. }
  split.
  - intros H. destruct (In_nth _ _ (V2 0 0, V2 0 0) H) as (i & Hi & E). rewrite combine_length, L, Nat.min_id in Hi. rewrite combine_nth in E by (symmetry; exact L).
    exists i. split; [exact Hi|]. rewrite <- E, N by exact Hi. reflexivity.
  - intros (i & Hi & ->). rewrite <- N by exact Hi. unfold pt. rewrite <- combine_nth by (symmetry; exact L). apply nth_In. rewrite combine_length, L, Nat.min_id. exact Hi.
Qed.
Definition axis_at (P : list vec2) (i : nat) : vec2 := V2 (- (uy (pt P (succ_in P i)) - uy (pt P i))) (ux (pt P (succ_in P i)) - ux (pt P i)).
Lemma edge_axes_In P ax : In ax (edge_axes P) <-> exists i, (i < length P)%nat /\ ax = axis_at P i.
Proof.
  unfold edge_axes. rewrite in_map_iff. split.
  - intros (e & <- & H). apply next_pairs_In in H. destruct H as (i & Hi & ->). exists i. split; [exact Hi|reflexivity].
  - intros (i & Hi & ->). exists (pt P i, pt P (succ_in P i)). split; [reflexivity|]. apply next_pairs_In. exists i. auto.
Qed.
Lemma axis_nonzero P i : no_repeat P -> (i < length P)%nat -> axis_at P i <> V2 0 0.
Proof.
  intros H Hi E. apply (H i Hi). unfold axis_at in E. apply v2_inj in E. destruct E as (E1 & E2). apply v2_eq; [qc_lra|qc_lra].
Qed.

Lemma touch_sound : forall P1 P2, no_repeat P1 -> no_repeat P2 -> polygon_relationship P1 P2 = TOUCH ->
  exists d, d <> V2 0 0 /\ separates d P1 P2.
Proof.
  intros P1 P2 N1 N2. unfold polygon_relationship. destruct (axis_loop P1 P2 false _) as [t|] eqn:E; [|discriminate]. destruct (_ || _)%bool; [discriminate|]. destruct t; [|discriminate]. intros _.
  apply axis_loop_touch in E. destruct E as [E|(ax & Hax & E)]; [discriminate|].
  assert (ax <> V2 0 0) as NZ.
  { apply in_app_or in Hax. destruct Hax as [H|H]; apply edge_axes_In in H; destruct H as (i & Hi & ->); apply axis_nonzero; assumption. }
  pose proof (project_bounds P1 ax) as (A1 & A2). pose proof (project_bounds P2 ax) as (B1 & B2). destruct E as [E|E].
  - exists (V2 (- ux ax) (- uy ax)). split.
    + intros X. apply NZ. apply v2_inj in X. destruct X as (X1 & X2). apply v2_eq; cbn; qc_lra.
    + exists (- fst (project_polygon P1 ax)). split; intros p Hp; rewrite v2dot_neg.
      * specialize (A1 p Hp). qc_lra.
      * specialize (B2 p Hp). rewrite <- E in B2. qc_lra.
  - exists ax. split; [exact NZ|]. exists (snd (project_polygon P1 ax)). split; [exact A2|]. rewrite E. exact B1.
Qed.

(** ** SAT2D *)
Lemma v2dot_pos d : d <> V2 0 0 -> 0 < v2dot d d.
Proof.
  intros H. unfold v2dot. destruct (Qceqb_spec (ux d) 0) as [E|E].
  - destruct (Qceqb_spec (uy d) 0) as [F|F]; [exfalso; apply H, v2_eq; assumption|]. rewrite E. apply Qc_neq_or in F. destruct F; qc_nra.
  - apply Qc_neq_or in E. destruct E; qc_nra.
Qed.
Lemma project_bounds' P d : d <> V2 0 0 -> (forall p, In p P -> fst (polygon_project P d) * v2dot d d <= v2dot p d) /\ (forall p, In p P -> v2dot p d <= snd (polygon_project P d) * v2dot d d).
Proof.
  intros NZ. pose proof (v2dot_pos d NZ) as Pos. unfold polygon_project. destruct ((ux d =? 0) && (uy d =? 0))%bool eqn:E.
  - apply andb_true_iff in E. destruct E. qcb. exfalso. apply NZ, v2_eq; assumption.
  - pose proof (fold_minmax (fun p => v2dot p d / v2dot d d) P DBL_MAX DBL_LOWEST) as H. cbv zeta in H.
    set (r := fold_left _ P _) in *. destruct H as ((_ & A) & (_ & B) & _).
    assert (forall x, x / v2dot d d * v2dot d d = x) as DM by (intros x; field; intros X; rewrite X in Pos; revert Pos; apply Qclt_irrefl || (apply Qcle_not_lt; apply Qcle_refl)).
    split; intros p Hp.
    + rewrite <- (DM (v2dot p d)). apply Qcmult_le_compat_r; [apply A, Hp|]. qc_lra.
    + rewrite <- (DM (v2dot p d)) at 1. apply Qcmult_le_compat_r; [apply B, Hp|]. qc_lra.
Qed.
Lemma intervals_apart_sound A B n : n <> V2 0 0 -> intervals_apart (polygon_project A n) (polygon_project B n) = true -> ~ hulls_meet A B.
Proof.
  intros NZ. unfold intervals_apart. pose proof (v2dot_pos n NZ) as Pos. pose proof (project_bounds' A n NZ) as (A1 & A2). pose proof (project_bounds' B n NZ) as (B1 & B2).
  destruct (_ <? snd (polygon_project A n)) eqn:E; intros H; qcb.
  - intros M. apply meet_sym in M. revert M. apply (strict_apart _ _ n _ _ B2 A1). apply Qcmult_lt_compat_r; assumption.
  - apply (strict_apart _ _ n _ _ A2 B1). apply Qcmult_lt_compat_r; assumption.
Qed.
Lemma sat_loop_sound keep A B edges : (forall p q, In (p, q) edges -> p <> q) -> forall normals, sat_loop keep A B normals edges = true -> ~ hulls_meet A B.
Proof.
  induction edges as [|(p, q) edges IH]; intros H normals; cbn [sat_loop]; [discriminate|].
  assert (V2 (uy q - uy p) (ux p - ux q) <> V2 0 0) as NZ.
  { intros E. apply v2_inj in E. destruct E as (E1 & E2). apply (H p q); [left; reflexivity|]. apply v2_eq; qc_lra. }
  assert (forall p q, In (p, q) edges -> p <> q) as H' by (intros; apply H; right; assumption).
  destruct (contains_normal _ _); [apply IH; assumption|].
  destruct (intervals_apart _ _) eqn:E; [intros _; exact (intervals_apart_sound _ _ _ NZ E)|apply IH; assumption].
Qed.
Lemma v2eq_refl p : v2eq p p = true.
Proof.
  unfold v2eq. assert (forall x, Qcabs (x - x) <? DBL_EPS = true) as E; [|rewrite !E; reflexivity].
  intros x. replace (x - x) with 0 by ring. vm_compute. reflexivity.
Qed.
Lemma singleton_hull a p : in_hull [a] p -> p = a.
Proof.
  intros (w & _ & S1 & Ex & Ey). cbn in *. apply v2_eq.
  - rewrite Ex. replace (w 0%nat) with 1 by (rewrite <- S1; ring). ring.
  - rewrite Ey. replace (w 0%nat) with 1 by (rewrite <- S1; ring). ring.
Qed.
Lemma Ok_inj {A} (x y : A) : Ok x = Ok y -> x = y.
Proof. intros [= H]. exact H. Qed.
Lemma sat_sound : forall keep A B, no_repeat A \/ (length A = 1)%nat -> no_repeat B \/ (length B = 1)%nat -> sat2d keep A B = Ok true -> ~ hulls_meet A B.
Proof.
  intros keep A B NA NB.
  assert (forall P, no_repeat P -> forall p q, In (p, q) (next_pairs P) -> p <> q) as NR.
  { intros P H p q I. apply next_pairs_In in I. destruct I as (i & Hi & [= -> ->]). intros X. apply (H i Hi). symmetry. exact X. }
  destruct A as [|a [|a' A]]; [discriminate| |].
  - destruct B as [|b [|b' B]]; [discriminate| |]; cbn [sat2d].
    + intros [= H] (p & P1 & P2). apply singleton_hull in P1, P2. subst p. subst b. rewrite v2eq_refl in H. discriminate.
    + destruct NB as [NB|NB]; [|cbn in NB; lia]. intros H. apply Ok_inj in H. exact (sat_loop_sound _ _ _ _ (NR _ NB) _ H).
  - destruct NA as [NA|NA]; [|cbn in NA; lia]. destruct B as [|b B]; [discriminate|]. cbn [sat2d]. intros H. apply Ok_inj in H. exact (sat_loop_sound _ _ _ _ (NR _ NA) _ H).
Qed.
