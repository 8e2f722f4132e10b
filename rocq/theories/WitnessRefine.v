(** Counterexamples and concrete cases for refinement, removal and derivative points. *)
From Coq Require Import List ZArith QArith Qcanon Lia Bool.
From Verif Require Import Base BaseFacts ModelVec ModelNurbs ModelSurface ModelRefine SpecNurbs SpecCurve SpecDerivative SpecRefine
  ProofPeriodic WitnessNurbs WitnessSurface.
Import ListNotations.
Open Scope Qc_scope.

Fixpoint l4eqb (l m : list vec4) : bool :=
  match l, m with [], [] => true | x :: l', y :: m' => v4eqb x y && l4eqb l' m' | _, _ => false end.
Lemma l4eqb_ok l : forall m, l4eqb l m = true -> l = m.
Proof.
  induction l as [|x l IH]; intros [|y m]; cbn [l4eqb]; try discriminate; [reflexivity|].
  rewrite andb_true_iff, v4eqb_spec. intros [-> B]. f_equal. apply IH. exact B.
Qed.
Definition ok_l4 (r : res (list vec4)) l : bool := match r with Ok a => l4eqb a l | _ => false end.
Lemma ok_l4_ok r l : ok_l4 r l = true -> r = Ok l.
Proof. destruct r; try discriminate. cbn. intros H. f_equal. apply l4eqb_ok. exact H. Qed.
Definition ok_lk (r : res (list vec4 * list Qc)) l k : bool := match r with Ok (a, b) => l4eqb a l && list_eqb b k | _ => false end.
Lemma ok_lk_ok r l k : ok_lk r l k = true -> r = Ok (l, k).
Proof. destruct r as [[a b]| |]; try discriminate. cbn. rewrite andb_true_iff. intros [A B]. rewrite (l4eqb_ok _ _ A), (list_eqb_ok _ _ B). reflexivity. Qed.

Definition valid_b (n p : nat) (U : list Qc) : bool :=
  Nat.leb p n && Nat.eqb (length U) (n + p + 2) && sorted_b U && (knot U n <? knot U (n + 1)).
Lemma valid_b_ok n p U : valid_b n p U = true -> valid_knots n p U.
Proof.
  unfold valid_b. rewrite !andb_true_iff. intros (((A & B) & C) & D). apply Nat.leb_le in A. apply Nat.eqb_eq in B. apply sorted_b_ok in C.
  repeat split; try assumption. qcb. exact D.
Qed.

(** ** a weighted segment *)
Definition seg_knots : list Qc := [0; 0; 1; 1].
Definition seg_points : list vec4 := [V4 0 0 0 1; V4 1 0 0 (qc 3 1)].
Lemma seg_valid : valid_knots 1 1 seg_knots. Proof. apply valid_b_ok. vm_compute. reflexivity. Qed.
Lemma coarse_units : coarse (fun x => In x [0; 0; 1; 1] \/ In x [qc 1 2]).
Proof.
  intros x y Hx Hy. cbn [In] in Hx, Hy.
  assert (x = 0 \/ x = 1 \/ x = qc 1 2) as X by (decompose [or] Hx; subst; auto; contradiction).
  assert (y = 0 \/ y = 1 \/ y = qc 1 2) as Y by (decompose [or] Hy; subst; auto; contradiction).
  destruct X as [->|[->| ->]], Y as [->|[->| ->]]; (left; reflexivity) || (right; left; vm_compute; discriminate) || (right; right; vm_compute; discriminate).
Qed.
Lemma asked_list n p U x l : (forall y, asked n p U [x] l 1 y -> In y (x :: l)).
Proof. intros y [[<-|[]]|H]; [left; reflexivity|right; exact H]. Qed.
Lemma coarse_mono (A B : Qc -> Prop) : (forall x, A x -> B x) -> coarse B -> coarse A.
Proof. intros H C x y Ax Ay. apply C; apply H; assumption. Qed.

Lemma weighted_refinement :
  exists p U P kl Q V u, valid_knots 1 p U /\ clamped 1 p U /\ length P = 2%nat /\ positive_weights P /\
    (forall x, In x kl -> in_domain 1 p U x) /\ coarse (fun x => In x U \/ asked 1 p U kl [] 1 x) /\
    knot_refinement p U P kl [] 1 = Ok (Q, V) /\ length Q = 3%nat /\ in_domain 1 p U u /\
    rational_point V 2 p Q u <> rational_point U 1 p P u.
Proof.
  exists 1%nat, seg_knots, seg_points, [qc 1 2], [V4 0 0 0 1; V4 (qc 1 2) 0 0 (qc 2 1); V4 1 0 0 (qc 3 1)], [0; 0; qc 1 2; 1; 1], (qc 1 2).
  split; [exact seg_valid|]. split; [apply clamped_b_ok; vm_compute; reflexivity|]. split; [reflexivity|].
  split; [intros q [<-|[<-|[]]]; reflexivity|]. split; [intros x [<-|[]]; split; vm_compute; discriminate|].
  split; [refine (coarse_mono _ _ _ coarse_units); intros x [H|H]; [left; exact H|right; exact (asked_list _ _ _ _ _ x H)]|].
  split; [apply ok_lk_ok; vm_compute; reflexivity|]. split; [reflexivity|]. split; [split; vm_compute; discriminate|].
  intros H. apply (f_equal vx) in H. revert H. vm_compute. discriminate.
Qed.

(** ** refinement of a parabola *)
Definition par_knots : list Qc := [0; 0; 0; 1; 1; 1].
Definition par_points : list vec4 := [V4 0 0 0 1; V4 1 (qc 2 1) 0 1; V4 (qc 2 1) 0 0 1].
Lemma par_valid : valid_knots 2 2 par_knots. Proof. apply valid_b_ok. vm_compute. reflexivity. Qed.
Lemma par_case : valid_knots 2 2 par_knots /\ clamped 2 2 par_knots /\ length par_points = 3%nat /\ unit_weights par_points /\
  (forall x, In x ([qc 1 2] ++ []) -> in_domain 2 2 par_knots x) /\ coarse (fun x => In x par_knots \/ asked 2 2 par_knots [qc 1 2] [] 1 x) /\
  knot_refinement 2 par_knots par_points [qc 1 2] [] 1 =
    Ok ([V4 0 0 0 1; V4 (qc 1 2) 1 0 1; V4 1 1 0 1; V4 (qc 3 2) 1 0 1; V4 (qc 2 1) 0 0 1], [0; 0; 0; qc 1 2; qc 1 2; 1; 1; 1]).
Proof.
  split; [exact par_valid|]. split; [apply clamped_b_ok; vm_compute; reflexivity|]. split; [reflexivity|].
  split; [intros q [<-|[<-|[<-|[]]]]; reflexivity|]. split; [intros x [<-|[]]; split; vm_compute; discriminate|].
  split; [|apply ok_lk_ok; vm_compute; reflexivity].
  refine (coarse_mono _ _ _ coarse_units). intros x [H|H]; [left; cbn in *; tauto|right; exact (asked_list _ _ _ _ _ x H)].
Qed.

(** ** removing the knot that was put in *)
Definition par_curve : ncurve := get_ok nc_default (nc_make par_points 2 false).
Lemma removal_witness :
  exists cps c c' t Q, nc_make cps 2 false = Ok c /\ good_curve c 2 /\ unit_weights cps /\ insert_knot c t 1 = Ok c' /\
    knot_removal 2 (nc_knots c') (nc_cps c') t (qc 1 1000) 1 = Ok Q /\ length Q = 3%nat /\
    nth 2 (nc_cps c) (V4 0 0 0 0) = V4 (qc 2 1) 0 0 1 /\ nth 2 Q (V4 0 0 0 0) = V4 1 (qc 2 1) 0 1.
Proof.
  exists par_points, par_curve, (get_ok nc_default (insert_knot par_curve (qc 1 2) 1)), (qc 1 2), [V4 0 0 0 1; V4 1 (qc 2 1) 0 1; V4 1 (qc 2 1) 0 1].
  split; [vm_compute; reflexivity|]. split; [apply good_b_ok; vm_compute; reflexivity|]. split; [intros q [<-|[<-|[<-|[]]]]; reflexivity|].
  split; [vm_compute; reflexivity|]. split; [apply ok_l4_ok; vm_compute; reflexivity|]. split; [reflexivity|].
  split; apply v4eqb_spec; vm_compute; reflexivity.
Qed.

(** ** derivative points *)
Definition kinked : list Qc := [0; 0; 0; qc 1 2; 1; 1; 1].
Definition kinked_points : list vec4 := [V4 0 0 0 1; V4 1 (qc 2 1) 0 1; V4 (qc 2 1) 0 0 1; V4 (qc 4 1) 1 0 (qc 2 1)].
Lemma inner_by_count n p U m : Forall (fun t => knot U p < t -> t < knot U (n + 1) -> (multiplicity U t <= m)%nat) U -> inner_multiplicity n p U m.
Proof.
  intros F t A B. destruct (multiplicity U t) as [|k] eqn:E; [lia|]. rewrite Forall_forall in F.
  assert (In t U) as I. { unfold multiplicity in E. destruct (filter (Qceqb t) U) as [|y l] eqn:F'; [discriminate|]. assert (In y (filter (Qceqb t) U)) as Hy by (rewrite F'; left; reflexivity).
    apply filter_In in Hy as [Hy Q]. qcb. subst y. exact Hy. }
  specialize (F t I A B). lia.
Qed.
Lemma kinked_case : valid_knots 3 2 kinked /\ length kinked_points = 4%nat /\ knot kinked 2 < knot kinked 3 /\ inner_multiplicity 3 2 kinked (2 + 1 - 2).
Proof.
  split; [apply valid_b_ok; vm_compute; reflexivity|]. split; [reflexivity|]. split; [vm_compute; reflexivity|].
  apply inner_by_count. repeat constructor; vm_compute; try discriminate; intros; lia.
Qed.
Lemma kinked_values : exists a b, curve_deriv_cpts 2 kinked kinked_points 2 0 3 = Ok [kinked_points; a; b] /\
  firstn 3 a = [V4 (qc 4 1) (qc 8 1) 0 0; V4 (qc 2 1) (qc (-4) 1) 0 0; V4 (qc 8 1) (qc 4 1) 0 (qc 4 1)] /\
  firstn 2 b = [V4 (qc (-4) 1) (qc (-24) 1) 0 0; V4 (qc 12 1) (qc 16 1) 0 (qc 8 1)].
Proof.
  destruct (curve_deriv_cpts 2 kinked kinked_points 2 0 3) as [[|x [|a [|b [|]]]]| |] eqn:E; try (exfalso; revert E; vm_compute; discriminate).
  exists a, b. assert (ok_l4 (l <- curve_deriv_cpts 2 kinked kinked_points 2 0 3 ;; get l 0) kinked_points = true) as E0 by (vm_compute; reflexivity).
  apply ok_l4_ok in E0. rewrite E in E0. injection E0 as ->. split; [reflexivity|].
  assert (forall r l, ok_l4 r l = true -> r = Ok l) as K by apply ok_l4_ok.
  split.
  - assert (ok_l4 (l <- curve_deriv_cpts 2 kinked kinked_points 2 0 3 ;; x <- get l 1 ;; Ok (firstn 3 x)) [V4 (qc 4 1) (qc 8 1) 0 0; V4 (qc 2 1) (qc (-4) 1) 0 0; V4 (qc 8 1) (qc 4 1) 0 (qc 4 1)] = true) as E1 by (vm_compute; reflexivity).
    apply K in E1. rewrite E in E1. cbn [bind get nth_error of_option] in E1. congruence.
  - assert (ok_l4 (l <- curve_deriv_cpts 2 kinked kinked_points 2 0 3 ;; x <- get l 2 ;; Ok (firstn 2 x)) [V4 (qc (-4) 1) (qc (-24) 1) 0 0; V4 (qc 12 1) (qc 16 1) 0 (qc 8 1)] = true) as E1 by (vm_compute; reflexivity).
    apply K in E1. rewrite E in E1. cbn [bind get nth_error of_option] in E1. congruence.
Qed.

(** ** a part of a surface *)
Definition strip_v : list Qc := [0; 0; qc 1 2; 1; 1].
Definition strip : list (list vec4) := [[V4 0 0 0 1; V4 1 0 0 1]; [V4 0 1 0 1; V4 1 1 1 1]; [V4 0 (qc 2 1) 0 1; V4 1 (qc 2 1) 0 1]].
Lemma strip_case : valid_knots 1 1 seg_knots /\ valid_knots 2 1 strip_v /\ length strip = 3%nat /\ (forall row, In row strip -> length row = 2%nat) /\
  knot seg_knots 1 < knot seg_knots 2 /\ knot strip_v 1 < knot strip_v 2 /\ inner_multiplicity 1 1 seg_knots (1 + 1 - Nat.min 1 2) /\ inner_multiplicity 2 1 strip_v (1 + 1 - Nat.min 1 2).
Proof.
  split; [exact seg_valid|]. split; [apply valid_b_ok; vm_compute; reflexivity|]. split; [reflexivity|]. split; [intros row [<-|[<-|[<-|[]]]]; reflexivity|].
  split; [vm_compute; reflexivity|]. split; [vm_compute; reflexivity|].
  split; apply inner_by_count; repeat constructor; vm_compute; try discriminate; intros; lia.
Qed.
Definition entry_b (r : res (list (list (list (list vec4))))) k l i j x : bool := match r with Ok t => v4eqb (entry4 t k l i j) x | _ => false end.
Lemma strip_part : exists p q ku kv cpts PKL PKL', 
  valid_knots 1 p ku /\ valid_knots 2 q kv /\ length cpts = 3%nat /\ (forall row, In row cpts -> length row = 2%nat) /\
  knot ku p < knot ku (p + 1) /\ knot kv q < knot kv (q + 1) /\
  inner_multiplicity 1 p ku (p + 1 - Nat.min p 1) /\ inner_multiplicity 2 q kv (q + 1 - Nat.min q 1) /\
  surface_deriv_cpts p q ku kv cpts 2 3 0 1 0 2 1 = Ok PKL /\ surface_deriv_cpts p q ku kv cpts 2 3 0 1 1 2 1 = Ok PKL' /\
  entry4 PKL 0 1 0 1 = V4 0 (qc 2 1) 0 0 /\ entry4 PKL' 0 1 0 0 = V4 0 (qc (-4) 1) 0 (qc (-2) 1).
Proof.
  destruct strip_case as (A & B & C & D & E & F & G & H).
  assert (exists t, surface_deriv_cpts 1 1 seg_knots strip_v strip 2 3 0 1 0 2 1 = Ok t /\ v4eqb (entry4 t 0 1 0 1) (V4 0 (qc 2 1) 0 0) = true) as (PKL & E1 & F1).
  { assert (entry_b (surface_deriv_cpts 1 1 seg_knots strip_v strip 2 3 0 1 0 2 1) 0 1 0 1 (V4 0 (qc 2 1) 0 0) = true) as X by (vm_compute; reflexivity).
    destruct (surface_deriv_cpts 1 1 seg_knots strip_v strip 2 3 0 1 0 2 1); try discriminate. eexists. split; [reflexivity|exact X]. }
  assert (exists t, surface_deriv_cpts 1 1 seg_knots strip_v strip 2 3 0 1 1 2 1 = Ok t /\ v4eqb (entry4 t 0 1 0 0) (V4 0 (qc (-4) 1) 0 (qc (-2) 1)) = true) as (PKL' & E2 & F2).
  { assert (entry_b (surface_deriv_cpts 1 1 seg_knots strip_v strip 2 3 0 1 1 2 1) 0 1 0 0 (V4 0 (qc (-4) 1) 0 (qc (-2) 1)) = true) as X by (vm_compute; reflexivity).
    destruct (surface_deriv_cpts 1 1 seg_knots strip_v strip 2 3 0 1 1 2 1); try discriminate. eexists. split; [reflexivity|exact X]. }
  exists 1%nat, 1%nat, seg_knots, strip_v, strip, PKL, PKL'. apply v4eqb_spec in F1, F2. auto 20.
Qed.

(** ** a quotient: (1 + u) v / (1 + u) at u = 0, v = 1 *)
Definition quot_table : list (list vec4) := [[V4 1 0 0 1; V4 1 0 0 0]; [V4 1 0 0 1; V4 1 0 0 0]].
Definition ok_t (r : res (list (list vec4))) (t : list (list vec4)) : bool :=
  match r with Ok a => Nat.eqb (length a) (length t) && forallb (fun xy => l4eqb (fst xy) (snd xy)) (combine a t) | _ => false end.
Lemma ok_t_ok r t : ok_t r t = true -> r = Ok t.
Proof.
  destruct r as [a| |]; try discriminate. cbn [ok_t]. rewrite andb_true_iff. intros [L F]. apply Nat.eqb_eq in L. f_equal. revert t L F.
  induction a as [|x a IH]; intros [|y t] L F; try discriminate L; [reflexivity|]. cbn [combine forallb fst snd] in F. apply andb_true_iff in F as [F1 F2].
  rewrite (l4eqb_ok _ _ F1). f_equal. apply IH; [cbn in L; lia|exact F2].
Qed.
Lemma quot_case : ww (entry2 quot_table 0 0) <> 0 /\ rat_surface_derivs quot_table 1 = Ok [[V4 1 0 0 0; V4 1 0 0 0]; [V4 0 0 0 0; V4 0 0 0 0]].
Proof. split; [discriminate|]. apply ok_t_ok. vm_compute. reflexivity. Qed.
