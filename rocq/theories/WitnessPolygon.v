(** Counterexamples and concrete cases for planar polygons. *)
From Coq Require Import List ZArith QArith Qcanon Lia Bool Permutation.
From Verif Require Import Base BaseFacts ModelVec ModelAabb ModelPolygon SpecNurbs SpecPolygon ProofMinimize ProofPolygon ProofSat ProofPip ProofConvex ProofHull.
Import ListNotations.
Open Scope Qc_scope.

(** ** checking hypotheses *)
Definition vi (x y : Z) : vec2 := V2 (Qc_of_Z x) (Qc_of_Z y).
Definition ccw_b (P : list vec2) : bool :=
  Nat.leb 3 (length P) && forallb (fun i => forallb (fun j => forallb (fun k => 0 <? turn (pt P i) (pt P j) (pt P k)) (seq (S j) (length P - S j))) (seq (S i) (length P - S i))) (seq 0 (length P)).
Lemma ccw_b_ok P : ccw_b P = true -> convex_ccw P.
Proof.
  unfold ccw_b. rewrite andb_true_iff, forallb_forall. intros (L & H). split; [apply Nat.leb_le; exact L|]. intros i j k I J K.
  specialize (H i ltac:(apply in_seq; lia)). rewrite forallb_forall in H. specialize (H j ltac:(apply in_seq; lia)). rewrite forallb_forall in H. specialize (H k ltac:(apply in_seq; lia)). qcb. exact H.
Qed.
Definition moderate_b (P : list vec2) : bool :=
  let B := Qc_of_Z (2 ^ 500) in forallb (fun p => (- B <=? ux p) && (ux p <=? B) && (- B <=? uy p) && (uy p <=? B)) P.
Lemma moderate_b_ok P : moderate_b P = true -> moderate P.
Proof.
  unfold moderate_b, moderate. cbv zeta. generalize (Qc_of_Z (2 ^ 500)). intros B H p Hp. rewrite forallb_forall in H. specialize (H p Hp). rewrite !andb_true_iff in H. destruct H as (((A & C) & D) & E). qcb. auto.
Qed.
Definition left_b (P : list vec2) (p : vec2) : bool := forallb (fun i => 0 <? turn (pt P i) (pt P (succ_in P i)) p) (seq 0 (length P)).
Lemma left_b_ok P p : left_b P p = true -> left_of_all P p.
Proof. unfold left_b. rewrite forallb_forall. intros H i Hi. specialize (H i ltac:(apply in_seq; lia)). qcb. exact H. Qed.
Definition v2eqb (a b : vec2) : bool := (ux a =? ux b) && (uy a =? uy b).
Lemma v2eqb_ok a b : v2eqb a b = true <-> a = b.
Proof.
  unfold v2eqb. rewrite andb_true_iff. split.
  - intros (A & B). destruct (Qceqb_spec (ux a) (ux b)); [|discriminate]. destruct (Qceqb_spec (uy a) (uy b)); [|discriminate]. apply v2_eq; assumption.
  - intros ->. split; [destruct (Qceqb_spec (ux b) (ux b))|destruct (Qceqb_spec (uy b) (uy b))]; congruence.
Qed.
Definition general_b (e : Qc) (P : list vec2) : bool :=
  let ne a b := negb (v2eqb a b) in
  forallb (fun a => forallb (fun b => ((uy a =? uy b) || (e <=? Qcabs (uy a - uy b))) && forallb (fun c => negb (ne a b && ne a c && ne b c) || (e <=? Qcabs (turn a b c))) P) P) P.
Fixpoint nodup_b (P : list vec2) : bool := match P with [] => true | a :: t => negb (existsb (v2eqb a) t) && nodup_b t end.
Lemma nodup_b_ok P : nodup_b P = true -> NoDup P.
Proof.
  induction P as [|a t IH]; [constructor|]. cbn [nodup_b]. rewrite andb_true_iff, negb_true_iff. intros (A & B). constructor; [|apply IH; exact B].
  intros H. rewrite (proj2 (existsb_exists (v2eqb a) t)) in A; [discriminate|]. exists a. split; [exact H|apply v2eqb_ok; reflexivity].
Qed.
Lemma general_b_ok e P : nodup_b P = true -> general_b e P = true -> general_position e P.
Proof.
  intros N H. split; [apply nodup_b_ok; exact N|]. unfold general_b in H. rewrite forallb_forall in H. split.
  - intros a b c A B C N1 N2 N3. specialize (H a A). rewrite forallb_forall in H. specialize (H b B). rewrite andb_true_iff, forallb_forall in H. destruct H as (_ & H). specialize (H c C).
    apply orb_true_iff in H. destruct H as [H|H]; [|qcb; exact H]. exfalso. apply negb_true_iff in H. assert (forall x y, x <> y -> negb (v2eqb x y) = true) as E by (intros x y X; apply negb_true_iff; destruct (v2eqb x y) eqn:Q; [exfalso; apply X, v2eqb_ok, Q|reflexivity]).
    rewrite !E in H by assumption. discriminate.
  - intros a b A B. specialize (H a A). rewrite forallb_forall in H. specialize (H b B). rewrite andb_true_iff in H. destruct H as (H & _). apply orb_true_iff in H. destruct H as [H|H]; [left|right; qcb; exact H].
    destruct (Qceqb_spec (uy a) (uy b)); [assumption|discriminate].
Qed.

(** a stable insertion sort is a possible std::sort *)
Fixpoint insert {A} (cmp : A -> A -> bool) (x : A) (l : list A) : list A :=
  match l with [] => [x] | y :: t => if cmp y x then y :: insert cmp x t else x :: y :: t end.
Definition isort {A} (cmp : A -> A -> bool) (l : list A) : list A := fold_right (insert cmp) [] l.
Lemma insert_perm {A} (cmp : A -> A -> bool) x l : Permutation (insert cmp x l) (x :: l).
Proof. induction l as [|y t IH]; [apply Permutation_refl|]. cbn [insert]. destruct (cmp y x); [|apply Permutation_refl]. rewrite IH. apply perm_swap. Qed.
Lemma isort_perm {A} (cmp : A -> A -> bool) l : Permutation (isort cmp l) l.
Proof. induction l as [|y t IH]; [apply Permutation_refl|]. cbn [isort fold_right]. rewrite insert_perm. apply perm_skip. exact IH. Qed.
Lemma isort_sorts {A} : sorts (@isort A).
Proof.
  intros cmp l (IR & TR & IC). split; [apply isort_perm|].
  assert (forall a b c, In a l -> In b l -> In c l -> cmp b a = false -> cmp c b = false -> cmp c a = false) as T2.
  { intros a b c Ha B C H1 H2. destruct (cmp c a) eqn:E; [|reflexivity]. exfalso. destruct (cmp a b) eqn:E1; [rewrite (TR c a b C Ha B E E1) in H2; discriminate|].
    destruct (cmp b c) eqn:E2; [rewrite (TR b c a B C Ha E2 E) in H1; discriminate|]. destruct (IC a b c Ha B C E1 H1 E2 H2) as (_ & F). congruence. }
  assert (forall a b, In a l -> In b l -> cmp a b = true -> cmp b a = false) as AS by (intros a b Ha B H; destruct (cmp b a) eqn:E; [rewrite <- (IR a Ha); symmetry; exact (TR a b a Ha B Ha H E)|reflexivity]).
  assert (forall m, incl m l -> ForallOrdPairs (fun a b => cmp b a = false) (isort cmp m)) as K; [|apply K, incl_refl].
  induction m as [|x m IH]; intros I; [constructor|]. cbn [isort fold_right]. specialize (IH (fun y Hy => I y (or_intror Hy))). change (fold_right (insert cmp) [] m) with (isort cmp m).
  assert (incl (isort cmp m) l) as I' by (intros y Hy; apply I; right; apply (Permutation_in _ (isort_perm cmp m)); exact Hy). assert (In x l) as Ix by (apply I; left; reflexivity).
  revert IH I'. generalize (isort cmp m). clear m I. induction l0 as [|y t IH]; intros F I; [repeat constructor|]. cbn [insert]. inversion F as [|? ? F1 F2]; subst.
  assert (In y l) as Iy by (apply I; left; reflexivity). assert (incl t l) as It by (intros z Hz; apply I; right; exact Hz).
  destruct (cmp y x) eqn:E.
  - constructor; [|apply IH; assumption]. apply Forall_forall. intros z Hz. apply (Permutation_in _ (insert_perm cmp x t)) in Hz. destruct Hz as [<-|Hz]; [apply AS; assumption|exact (proj1 (Forall_forall _ _) F1 z Hz)].
  - constructor; [|exact F]. apply Forall_forall. intros z [<-|Hz]; [exact E|]. apply (T2 x y z); auto. exact (proj1 (Forall_forall _ _) F1 z Hz).
Qed.

(** ** polygons *)
Definition sq0 : list vec2 := [vi 0 0; vi 2 0; vi 2 2; vi 0 2].
Definition sq1 : list vec2 := [vi 1 1; vi 3 1; vi 3 3; vi 1 3].
Definition sq2 : list vec2 := [vi 2 1; vi 4 1; vi 4 3; vi 2 3].
Definition tri3 : list vec2 := [vi 5 1; vi 7 2; vi 5 3].
Definition sq0r : list vec2 := sq0 ++ [vi 0 2].
Lemma sq_facts : convex_ccw sq0 /\ convex_ccw sq1 /\ convex_ccw sq2 /\ convex_ccw tri3 /\ moderate sq0 /\ moderate sq1 /\ moderate sq2 /\ moderate tri3.
Proof. repeat match goal with |- convex_ccw _ => apply ccw_b_ok; vm_compute; reflexivity | |- moderate _ => apply moderate_b_ok; vm_compute; reflexivity | |- _ => apply conj end. Qed.
Lemma sq_cases : polygon_relationship sq0 sq1 = INTERSECT /\ polygon_relationship sq0 sq2 = TOUCH /\ polygon_relationship sq0 tri3 = DISTANCE.
Proof. split; [|split]; vm_compute; reflexivity. Qed.

Lemma no_sep : forall d, separates d sq0 sq1 -> d = V2 0 0.
Proof.
  intros [x y] (c & A & B). pose proof (A (vi 0 0) ltac:(cbn; tauto)) as A0. pose proof (A (vi 2 0) ltac:(cbn; tauto)) as A1. pose proof (A (vi 0 2) ltac:(cbn; tauto)) as A2. pose proof (A (vi 2 2) ltac:(cbn; tauto)) as A3. pose proof (B (vi 1 1) ltac:(cbn; tauto)) as B0.
  unfold v2dot, vi in *. cbn [ux uy] in *. change (Qc_of_Z 0) with 0 in *. change (Qc_of_Z 1) with 1 in *. replace (Qc_of_Z 2) with (1 + 1) in * by (apply Qc_is_canon; reflexivity). clear A B. apply v2_eq; cbn [ux uy]; apply Qcle_antisym; qc_lra.
Qed.
Lemma touch_repeat : exists A B, polygon_relationship A B = TOUCH /\ hulls_meet A B /\ forall d, d <> V2 0 0 -> ~ separates d A B.
Proof.
  exists sq0r, sq1. split; [vm_compute; reflexivity|]. split.
  - exists (vi 2 2). split; [apply point_in_hull; cbn; tauto|]. apply (hull_between sq1 (vi 1 2) (vi 3 2)).
    1, 2: apply (hull_seg sq1 (vi 1 1) (vi 1 3) (vi 1 2) (qc 1 2)) || apply (hull_seg sq1 (vi 3 1) (vi 3 3) (vi 3 2) (qc 1 2)).
    all: try (apply point_in_hull; cbn; tauto). all: try (apply Qc_is_canon; vm_compute; reflexivity). all: vm_compute; discriminate.
  - intros d N S. apply N. apply no_sep. destruct S as (c & A & B). exists c. split; [|exact B]. intros p Hp. apply A. unfold sq0r. apply in_or_app. left. exact Hp.
Qed.
Lemma segments_apart : exists A B, no_repeat A /\ no_repeat B /\ ~ hulls_meet A B /\ polygon_relationship A B = TOUCH.
Proof.
  exists [vi 0 0; vi 1 0], [vi 2 0; vi 3 0]. split; [|split; [|split]].
  - intros [|[|i]] Hi; [intros E; apply (f_equal ux) in E; discriminate..|cbn in Hi; lia].
  - intros [|[|i]] Hi; [intros E; apply (f_equal ux) in E; discriminate..|cbn in Hi; lia].
  - intros (p & A & B). pose proof (hull_half _ _ (vi 1 0) 1 A) as H1. pose proof (hull_half_lo _ _ (vi 1 0) (1 + 1) B) as H2.
    cut (1 + 1 <= 1); [intros C; revert C; vm_compute; congruence|]. apply (Qcle_trans _ (v2dot p (vi 1 0))); [apply H2|apply H1]; intros q [<-|[<-|[]]]; vm_compute; discriminate.
  - vm_compute. reflexivity.
Qed.
Lemma empty_intersect : polygon_relationship [] [] = INTERSECT /\ ~ hulls_meet [] [].
Proof. split; [reflexivity|]. intros (p & (w & _ & S & _) & _). cbn in S. discriminate. Qed.

(** ** SAT2D *)
Lemma sat_repeat : exists A B, hulls_meet A B /\ forall keep, sat2d keep A B = Ok true.
Proof.
  exists [vi 0 0; vi 0 0; vi 2 0; vi 1 2], sq0. split; [exists (vi 0 0); split; apply point_in_hull; cbn; tauto|].
  intros keep. unfold sat2d. change (next_pairs [vi 0 0; vi 0 0; vi 2 0; vi 1 2]) with [(vi 0 0, vi 0 0); (vi 0 0, vi 2 0); (vi 2 0, vi 1 2); (vi 1 2, vi 0 0)].
  cbn [sat_loop]. change (contains_normal [] _) with false. cbv iota. set (i := intervals_apart _ _). assert (i = true) as -> by (vm_compute; reflexivity). reflexivity.
Qed.
Definition corner : list vec2 := [V2 (qc 19 10) (qc 4 10); vi 3 3; V2 (qc 4 10) (qc 19 10)].
Definition sq : list vec2 := [vi 0 0; vi 1 0; vi 1 1; vi 0 1].
Lemma sat_incomplete : exists A B, convex_ccw A /\ convex_ccw B /\ ~ hulls_meet A B /\ sat2d (fun _ _ => false) A B = Ok false /\ sat2d (fun _ _ => true) A B = Ok false /\ polygon_relationship A B = DISTANCE.
Proof.
  exists sq, corner. split; [apply ccw_b_ok; vm_compute; reflexivity|]. split; [apply ccw_b_ok; vm_compute; reflexivity|].
  assert (polygon_relationship sq corner = DISTANCE) as D by (vm_compute; reflexivity). split; [exact (distance_sound _ _ D)|].
  split; [vm_compute; reflexivity|]. split; [vm_compute; reflexivity|exact D].
Qed.
Lemma sat_case : no_repeat sq0 /\ no_repeat tri3 /\ sat2d (fun _ _ => true) sq0 tri3 = Ok true.
Proof. split; [|split; [|vm_compute; reflexivity]]; apply convex_no_repeat; left; apply sq_facts. Qed.

(** ** hulls *)
Definition cloud : list vec2 := [vi 3 3; vi 0 1; vi 6 2; vi 2 2; vi 5 7; vi 1 0].
Lemma cloud_general : general_position lit_1em9 cloud.
Proof. apply general_b_ok; vm_compute; reflexivity. Qed.
(** corners of a square, its centre, a point of a side and two corners again *)
Definition grid : list vec2 := [vi 1 1; vi 0 0; vi 2 0; vi 0 2; vi 2 2; vi 1 0; vi 0 0; vi 2 2].
Definition clear_b (e : Qc) (P : list vec2) : bool :=
  forallb (fun a => forallb (fun b => ((uy a =? uy b) || (e <=? Qcabs (uy a - uy b))) && forallb (fun c => (turn a b c =? 0) || (e <=? Qcabs (turn a b c))) P) P) P.
Lemma clear_b_ok e P : clear_b e P = true -> clear_position e P.
Proof.
  unfold clear_b. rewrite forallb_forall. intros H. split.
  - intros a b c A B C. specialize (H a A). rewrite forallb_forall in H. specialize (H b B). rewrite andb_true_iff, forallb_forall in H. destruct H as (_ & H). specialize (H c C).
    apply orb_true_iff in H. destruct H as [H|H]; [left|right; qcb; exact H]. destruct (Qceqb_spec (turn a b c) 0); [assumption|discriminate].
  - intros a b A B. specialize (H a A). rewrite forallb_forall in H. specialize (H b B). rewrite andb_true_iff in H. destruct H as (H & _). apply orb_true_iff in H. destruct H as [H|H]; [left|right; qcb; exact H].
    destruct (Qceqb_spec (uy a) (uy b)); [assumption|discriminate].
Qed.
Lemma grid_clear : clear_position lit_1em9 grid. Proof. apply clear_b_ok. vm_compute. reflexivity. Qed.
Lemma grid_solid : not_collinear grid.
Proof. exists (vi 0 0), (vi 2 0), (vi 2 2). do 3 (split; [cbn; auto 10|]). intros H. vm_compute in H. discriminate. Qed.
Lemma grid_hull : convex_hull2d isort grid = Ok [vi 0 0; vi 2 0; vi 2 2; vi 0 2].
Proof. vm_compute. reflexivity. Qed.
Lemma cloud_hull : convex_hull2d isort cloud = Ok [vi 1 0; vi 6 2; vi 5 7; vi 0 1].
Proof. vm_compute. reflexivity. Qed.
Lemma hull_collinear : exists P, NoDup P /\ (length P = 3)%nat /\ convex_hull2d isort P = Ok [].
Proof. exists [vi 0 0; vi 1 1; vi 2 2]. split; [apply nodup_b_ok; vm_compute; reflexivity|]. split; vm_compute; reflexivity. Qed.
Lemma hull_small : exists P, convex_ccw P /\ convex_hull2d isort P = Ok [].
Proof. exists [V2 0 0; V2 (qc 1 100000) 0; V2 0 (qc 1 100000)]. split; [apply ccw_b_ok; vm_compute; reflexivity|]. vm_compute. reflexivity. Qed.
Lemma pip_case : convex_ccw tri3 /\ left_of_all tri3 (vi 6 2) /\ point_in_polygon tri3 (vi 6 2) = true.
Proof. split; [apply sq_facts|]. split; [apply left_b_ok; vm_compute; reflexivity|vm_compute; reflexivity]. Qed.
(** the lower left corner counts as inside, the upper right one does not *)
Lemma pip_corners : point_in_polygon sq0 (vi 0 0) = true /\ point_in_polygon sq0 (vi 2 2) = false.
Proof. split; vm_compute; reflexivity. Qed.
