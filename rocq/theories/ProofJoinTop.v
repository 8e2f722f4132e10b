(** What join builds, and which points the result runs through. *)
From Coq Require Import List ZArith QArith Qcanon Bool Lia Lqa Field.
From Verif Require Import Base BaseFacts LoopFacts ModelVec ModelAabb ModelNurbs ModelNumeric ModelDerivative ModelJoin
  SpecNurbs SpecCurve SpecDerivative SpecJoin ProofBspline ProofNurbs ProofInsertCurve ProofInsertKnot ProofCurve ProofPeriodic ProofJoin.
Import ListNotations.
Open Scope Qc_scope.

Lemma near_touching len a b : reflect (touching len a b) (near_end len a b).
Proof.
  apply iff_reflect. unfold touching, near_end. destruct (len (v3sub a b)) as [l|].
  - rewrite Qcltb_iff. split; [intros (l' & E & L); injection E as <-; exact L|intros L; exists l; split; [reflexivity|exact L]].
  - split; [intros (l' & E & _); discriminate|discriminate].
Qed.

Lemma nth_last {A} (l : list A) d : last l d = nth (length l - 1) l d.
Proof.
  induction l as [|a l IH]; [reflexivity|]. destruct l as [|b l]; [reflexivity|]. cbn [last]. cbn [last] in IH. rewrite IH. cbn [length]. replace (S (S (length l)) - 1)%nat with (S (S (length l) - 1)) by lia. reflexivity.
Qed.

(** ** end points of an open curve *)
Lemma open_ends c n : open_curve c n ->
  evaluate c (fst (nc_interval c)) = Ok (first_point c) /\ evaluate c (snd (nc_interval c)) = Ok (last_point c).
Proof.
  intros ((HP & V & H8) & C & HU & W & I). pose proof V as (Hpn & HL & HS & HN). pose proof (sorted_mono _ HS) as M.
  rewrite I. cbn [fst snd]. destruct C as [C1 C2]. rewrite <- (C1 (nc_degree c)) by lia. rewrite (C2 (length (nc_knots c) - 1)%nat) by lia.
  assert (in_domain n (nc_degree c) (nc_knots c) (knot (nc_knots c) (nc_degree c))) as D0 by (split; [apply Qcle_refl|apply M; lia]).
  assert (in_domain n (nc_degree c) (nc_knots c) (knot (nc_knots c) (n + 1))) as D1 by (split; [apply M; lia|apply Qcle_refl]).
  rewrite (evaluate_positive c n _ HP V H8 D0 W), (evaluate_positive c n _ HP V H8 D1 W).
  destruct (curve_ends n (nc_degree c) (nc_knots c) (nc_cps c) V (conj C1 C2) HU HP W) as [-> ->]. split; [reflexivity|].
  unfold last_point. do 2 f_equal. fold d4. rewrite nth_last, HP. f_equal. lia.
Qed.

(** ** reversing and adjacency *)
Lemma last_app {A} (l1 l2 : list A) d : l2 <> [] -> last (l1 ++ l2) d = last l2 d.
Proof. intros H. destruct (exists_last H) as (l' & a & ->). rewrite app_assoc, !last_last. reflexivity. Qed.
Lemma first_rev {A} (l : list A) d : nth 0 (rev l) d = last l d.
Proof.
  induction l as [|a l IH] using rev_ind; [reflexivity|]. rewrite rev_app_distr, last_last. reflexivity.
Qed.
Lemma last_rev {A} (l : list A) d : last (rev l) d = nth 0 l d.
Proof. rewrite <- (rev_involutive l) at 2. symmetry. apply first_rev. Qed.

(** how the pieces are laid out *)
Definition laid (len : vec3 -> option Qc) (c1 c2 : ncurve) (l1 l2 : list vec4) : Prop :=
  either_way l1 (nc_cps c1) /\ either_way l2 (nc_cps c2) /\
  touching len (xyz (last l1 (V4 0 0 0 0))) (xyz (nth 0 l2 (V4 0 0 0 0))).

Definition result_of (len : vec3 -> option Qc) (c1 : ncurve) (l : list vec4) (r : ncurve) : Prop :=
  nc_degree r = nc_degree c1 /\
  ((nc_periodic r = false /\ nc_cps r = l /\ ~ touching len (divided (nth 0 l (V4 0 0 0 0))) (divided (last l (V4 0 0 0 0)))) \/
   (nc_periodic r = true /\ (nc_cps r = l \/ nc_cps r = l ++ firstn (nc_degree c1) l) /\ wraps r /\
    touching len (divided (nth 0 l (V4 0 0 0 0))) (divided (last l (V4 0 0 0 0))))).

Lemma positive_app l1 l2 : positive_weights l1 -> positive_weights l2 -> positive_weights (l1 ++ l2).
Proof. intros A B q Hq. apply in_app_iff in Hq. destruct Hq; auto. Qed.
Lemma positive_way l P : either_way l P -> positive_weights P -> positive_weights l.
Proof. intros [->| ->] W q Hq; [auto|]. apply in_rev in Hq. auto. Qed.
Lemma way_length {A} (l P : list A) : either_way l P -> length l = length P.
Proof. intros [->| ->]; [reflexivity|apply rev_length]. Qed.

(** the end of the join: build the curve from the laid-out points *)
Lemma finish len c1 l : (nc_degree c1 < length l)%nat -> positive_weights l ->
  exists r, (start_pt <- get l 0 ;; end_pt <- get l (length l - 1) ;; new_start <- to_vec3 start_pt ;; new_end <- to_vec3 end_pt ;;
    r <- nc_make l (nc_degree c1) (near_end len new_start new_end) ;; Ok (Some (nc_copy r))) = Ok (Some r) /\ result_of len c1 l r /\
    interval_current r /\
    (nc_periodic r = false -> gen_knots (length l) (nc_degree c1) = Ok (nc_knots r)) /\
    (nc_periodic r = true -> nc_knots r = gen_knots_periodic (length (nc_cps r)) (nc_degree c1)) /\
    (nc_periodic r = true -> nc_cps r = l -> forall j, (j < nc_degree c1)%nat -> nth j l d4 = nth (length l - nc_degree c1 + j) l d4).
Proof.
  intros L W. rewrite (get_ok _ _ d4) by lia. cbn [bind]. rewrite (get_ok _ _ d4) by lia. cbn [bind].
  rewrite (divided_ok (nth 0 l d4)) by (apply W; apply nth_In; lia). cbn [bind].
  rewrite (divided_ok (nth (length l - 1) l d4)) by (apply W; apply nth_In; lia). cbn [bind]. rewrite <- nth_last.
  unfold result_of. fold d4. destruct (near_touching len (divided (nth 0 l d4)) (divided (last l d4))) as [T|T].
  - destruct (make_closed l (nc_degree c1) L W) as (r & E & Ed & Ep & Ek & Ei & WR & EC). rewrite E. cbn [bind]. exists r.
    split; [destruct r; reflexivity|]. split; [split; [exact Ed|right; split; [exact Ep|split; [destruct EC as [[EC _]|EC]; auto|split; assumption]]]|].
    split; [assumption|]. split; [congruence|]. split; [intros _; exact Ek|]. intros _ EL j Hj.
    specialize (WR j). rewrite Ed, EL in WR. apply WR. assumption.
  - destruct (length l) as [|n] eqn:EL; [lia|]. destruct (make_open l (nc_degree c1) n EL ltac:(lia) W) as (r & U & E & Ec & Ed & Ep & Eg & Ek & Ei). rewrite E. cbn [bind]. exists r.
    split; [destruct r; reflexivity|]. split; [split; [exact Ed|left; auto]|]. split; [assumption|]. split; [intros _; rewrite Eg, Ek; reflexivity|]. split; intros F; congruence.
Qed.

Lemma join_full len c1 c2 n1 n2 : open_curve c1 n1 -> open_curve c2 n2 ->
  exists o, nc_join len c1 c2 = Ok o /\
    (o <> None <-> ~ wraps c1 /\ ~ wraps c2 /\ exists f1 e1 f2 e2, ends c1 f1 e1 /\ ends c2 f2 e2 /\ touching len e1 e2) /\
    forall r, o = Some r -> exists l1 l2, laid len c1 c2 l1 l2 /\ result_of len c1 (l1 ++ l2) r /\
    interval_current r /\
    (nc_periodic r = false -> gen_knots (length (l1 ++ l2)) (nc_degree c1) = Ok (nc_knots r)) /\
    (nc_periodic r = true -> nc_knots r = gen_knots_periodic (length (nc_cps r)) (nc_degree c1)) /\
    (nc_periodic r = true -> nc_cps r = l1 ++ l2 -> forall j, (j < nc_degree c1)%nat -> nth j (l1 ++ l2) d4 = nth (length (l1 ++ l2) - nc_degree c1 + j) (l1 ++ l2) d4).
Proof.
  intros O1 O2. destruct (open_ends c1 n1 O1) as [S1 E1]. destruct (open_ends c2 n2 O2) as [S2 E2].
  destruct O1 as ((HP1 & V1 & H81) & _ & _ & W1 & _). destruct O2 as ((HP2 & V2 & H82) & _ & _ & W2 & _).
  pose proof V1 as (Hn1 & _). pose proof V2 as (Hn2 & _).
  unfold nc_join. destruct (is_periodic_wraps c1 ltac:(lia)) as (b1 & -> & B1). cbn [bind].
  destruct b1.
  { cbn [bind]. exists None. split; [reflexivity|]. split; [|discriminate]. split; [intros F; contradiction|]. intros (F & _). exfalso. apply F, B1. reflexivity. }
  destruct (is_periodic_wraps c2 ltac:(lia)) as (b2 & -> & B2). cbn [bind]. destruct b2.
  { exists None. split; [reflexivity|]. split; [|discriminate]. split; [intros F; contradiction|]. intros (_ & F & _). exfalso. apply F, B2. reflexivity. }
  assert (~ wraps c1) as NW1 by (intros F; apply B1 in F; discriminate). assert (~ wraps c2) as NW2 by (intros F; apply B2 in F; discriminate).
  rewrite S1, E1, S2, E2. cbn [bind].
  assert (nc_cps c1 <> []) as NE1 by (intros F; rewrite F in HP1; discriminate). assert (nc_cps c2 <> []) as NE2 by (intros F; rewrite F in HP2; discriminate).
  assert (forall l1 l2, laid len c1 c2 l1 l2 -> exists o,
    (start_pt <- get (l1 ++ l2) 0 ;; end_pt <- get (l1 ++ l2) (length (l1 ++ l2) - 1) ;; new_start <- to_vec3 start_pt ;; new_end <- to_vec3 end_pt ;;
     r <- nc_make (l1 ++ l2) (nc_degree c1) (near_end len new_start new_end) ;; Ok (Some (nc_copy r))) = Ok o /\
    (o <> None <-> ~ wraps c1 /\ ~ wraps c2 /\ exists f1 e1 f2 e2, ends c1 f1 e1 /\ ends c2 f2 e2 /\ touching len e1 e2) /\
    forall r, o = Some r -> exists l1 l2, laid len c1 c2 l1 l2 /\ result_of len c1 (l1 ++ l2) r /\
    interval_current r /\
    (nc_periodic r = false -> gen_knots (length (l1 ++ l2)) (nc_degree c1) = Ok (nc_knots r)) /\
    (nc_periodic r = true -> nc_knots r = gen_knots_periodic (length (nc_cps r)) (nc_degree c1)) /\
    (nc_periodic r = true -> nc_cps r = l1 ++ l2 -> forall j, (j < nc_degree c1)%nat -> nth j (l1 ++ l2) d4 = nth (length (l1 ++ l2) - nc_degree c1 + j) (l1 ++ l2) d4)) as K.
  { intros l1 l2 LD. pose proof LD as (A1 & A2 & T).
    destruct (finish len c1 (l1 ++ l2)) as (r & E & R). { rewrite app_length, (way_length l1 _ A1). lia. } { apply positive_app; eapply positive_way; eassumption. }
    exists (Some r). split; [exact E|]. split.
    - split; [intros _|intros _ F; discriminate]. split; [assumption|]. split; [assumption|].
      fold d4 in T.
      assert (exists f1, ends c1 f1 (xyz (last l1 d4))) as (f1 & F1).
      { destruct A1 as [->| ->]; [exists (first_point c1); left; auto|exists (last_point c1); right; split; [reflexivity|]]. rewrite last_rev. reflexivity. }
      assert (exists f2, ends c2 f2 (xyz (nth 0 l2 d4))) as (f2 & F2).
      { destruct A2 as [->| ->]; [exists (last_point c2); right; auto|exists (first_point c2); left; split; [reflexivity|]]. rewrite first_rev. reflexivity. }
      exists f1, (xyz (last l1 d4)), f2, (xyz (nth 0 l2 d4)). auto.
    - intros r' Er. injection Er as <-. exists l1, l2. split; [exact LD|exact R]. }
  destruct (near_touching len (last_point c1) (first_point c2)) as [T3|T3].
  { rewrite andb_false_r. cbn [andb negb]. apply K. split; [left; reflexivity|]. split; [left; reflexivity|]. exact T3. }
  destruct (near_touching len (first_point c1) (first_point c2)) as [T1|T1].
  { cbn [andb negb]. apply K. split; [right; reflexivity|]. split; [left; reflexivity|]. fold d4. rewrite last_rev. exact T1. }
  destruct (near_touching len (last_point c1) (last_point c2)) as [T4|T4].
  { rewrite andb_false_r. apply K. split; [left; reflexivity|]. split; [right; reflexivity|]. fold d4. rewrite first_rev. exact T4. }
  destruct (near_touching len (first_point c1) (last_point c2)) as [T2|T2].
  { cbn [andb negb]. apply K. split; [right; reflexivity|]. split; [right; reflexivity|]. fold d4. rewrite first_rev, last_rev. exact T2. }
  cbn [andb negb]. exists None. split; [reflexivity|]. split; [|discriminate]. split; [intros F; contradiction|]. intros (_ & _ & f1 & e1 & f2 & e2 & X1 & X2 & T). exfalso.
  destruct X1 as [[_ ->]|[_ ->]], X2 as [[_ ->]|[_ ->]]; contradiction.
Qed.

Lemma join_top len c1 c2 n1 n2 : open_curve c1 n1 -> open_curve c2 n2 ->
  exists o, nc_join len c1 c2 = Ok o /\
    (o <> None <-> ~ wraps c1 /\ ~ wraps c2 /\ exists f1 e1 f2 e2, ends c1 f1 e1 /\ ends c2 f2 e2 /\ touching len e1 e2) /\
    forall r, o = Some r -> exists l1 l2,
      either_way l1 (nc_cps c1) /\ either_way l2 (nc_cps c2) /\
      touching len (xyz (last l1 (V4 0 0 0 0))) (xyz (nth 0 l2 (V4 0 0 0 0))) /\
      nc_degree r = nc_degree c1 /\
      ((nc_periodic r = false /\ nc_cps r = l1 ++ l2 /\
        ~ touching len (divided (nth 0 (l1 ++ l2) (V4 0 0 0 0))) (divided (last (l1 ++ l2) (V4 0 0 0 0)))) \/
       (nc_periodic r = true /\ (nc_cps r = l1 ++ l2 \/ nc_cps r = (l1 ++ l2) ++ firstn (nc_degree c1) (l1 ++ l2)) /\ wraps r /\
        touching len (divided (nth 0 (l1 ++ l2) (V4 0 0 0 0))) (divided (last (l1 ++ l2) (V4 0 0 0 0))))).
Proof.
  intros O1 O2. destruct (join_full len c1 c2 n1 n2 O1 O2) as (o & E & H1 & H2). exists o. split; [exact E|]. split; [exact H1|].
  intros r Er. destruct (H2 r Er) as (l1 & l2 & (A & B & C) & (D & F) & _). exists l1, l2. auto.
Qed.

Lemma last_default {A} (l : list A) d d' : l <> [] -> last l d = last l d'.
Proof. intros H. destruct (exists_last H) as (l' & a & ->). rewrite !last_last. reflexivity. Qed.

(** ** polygons: concatenation and reversal *)
Lemma polygon_app a l1 b l2 p : on_polygon ((a :: l1) ++ b :: l2) p <-> on_polygon (a :: l1) p \/ on_segment (last (a :: l1) a) b p \/ on_polygon (b :: l2) p.
Proof.
  revert a. induction l1 as [|x l1 IH]; intros a.
  - cbn [app last]. cbn [on_polygon]. tauto.
  - change ((a :: x :: l1) ++ b :: l2) with (a :: ((x :: l1) ++ b :: l2)).
    assert (forall l, on_polygon (a :: x :: l) p <-> on_segment a x p \/ on_polygon (x :: l) p) as K by (intros; reflexivity).
    cbn [app]. rewrite !K. change (x :: l1 ++ b :: l2) with ((x :: l1) ++ b :: l2). rewrite IH.
    change (last (a :: x :: l1) a) with (last (x :: l1) a). rewrite (last_default (x :: l1) a x) by discriminate.
    tauto.
Qed.

Lemma polygon_app' l1 l2 p d : l1 <> [] -> l2 <> [] -> on_polygon (l1 ++ l2) p <-> on_polygon l1 p \/ on_segment (last l1 d) (nth 0 l2 d) p \/ on_polygon l2 p.
Proof.
  intros H1 H2. destruct l1 as [|a l1]; [contradiction|]. destruct l2 as [|b l2]; [contradiction|]. rewrite polygon_app. rewrite (last_default (a :: l1) a d) by assumption. reflexivity.
Qed.

Lemma segment_sym a b p : on_segment a b p <-> on_segment b a p.
Proof.
  assert (forall a b, on_segment a b p -> on_segment b a p) as K; [|split; apply K].
  clear. intros a b (s & H0 & H1 & ->). exists (1 - s). split; [qc_lra|]. split; [qc_lra|]. unfold lerp3. f_equal; ring.
Qed.

Lemma polygon_rev l p : on_polygon (rev l) p <-> on_polygon l p.
Proof.
  induction l as [|a l IH]; [reflexivity|]. cbn [rev]. destruct l as [|b l]; [reflexivity|].
  rewrite (polygon_app' (rev (b :: l)) [a] p a). 2:{ cbn. intros F. apply app_eq_nil in F. destruct F. discriminate. } 2:{ discriminate. }
  rewrite IH, last_rev. cbn [nth]. change (on_polygon (a :: b :: l) p) with (on_segment a b p \/ on_polygon (b :: l) p). rewrite (segment_sym b a). cbn [on_polygon]. tauto.
Qed.

Lemma segment_point a p : on_segment a a p <-> p = a.
Proof.
  split.
  - intros (s & _ & _ & ->). unfold lerp3. destruct a as [x y z]. cbn [vx vy vz]. f_equal; ring.
  - intros ->. exists 0. split; [qc_lra|]. split; [qc_lra|]. unfold lerp3. destruct a as [x y z]. cbn [vx vy vz]. f_equal; ring.
Qed.
Lemma segment_start a b : on_segment a b a.
Proof. exists 0. split; [qc_lra|]. split; [qc_lra|]. unfold lerp3. destruct a as [x y z]. cbn [vx vy vz]. f_equal; ring. Qed.

Lemma polygon_way (l P : list vec4) p : either_way l P -> on_polygon (map xyz l) p <-> on_polygon (map xyz P) p.
Proof. intros [->| ->]; [reflexivity|]. rewrite map_rev. apply polygon_rev. Qed.

Lemma map_last (l : list vec4) : l <> [] -> last (map xyz l) (xyz d4) = xyz (last l d4).
Proof. intros H. destruct (exists_last H) as (l' & a & ->). rewrite map_app. cbn [map]. rewrite !last_last. reflexivity. Qed.

Lemma gen_simple n p U : (p <= n)%nat -> gen_knots (S n) p = Ok U -> simple_knots n p U /\ valid_knots n p U.
Proof.
  intros H E. destruct (gen_knots_spec n p H) as (U' & E' & V & _ & _ & _ & _ & K). rewrite E in E'. injection E' as <-. split; [|assumption].
  intros i H1 H2. rewrite !K by lia. apply Qc_of_nat_lt. lia.
Qed.
Lemma periodic_simple n p : simple_knots n p (gen_knots_periodic (S n) p).
Proof. intros i H1 H2. rewrite !periodic_knot by lia. apply uni_lt. lia. Qed.

(** ** joined polylines *)
Lemma join_polyline len c1 c2 n1 n2 r : open_curve c1 n1 -> open_curve c2 n2 -> nc_degree c1 = 1%nat -> nc_degree c2 = 1%nat ->
  simple_knots n1 1 (nc_knots c1) -> simple_knots n2 1 (nc_knots c2) -> nc_join len c1 c2 = Ok (Some r) ->
  exists n f1 e1 f2 e2, good_curve r n /\ ends c1 f1 e1 /\ ends c2 f2 e2 /\ touching len e1 e2 /\
    forall p, traced r n p <-> traced c1 n1 p \/ traced c2 n2 p \/ on_segment e1 e2 p \/ (nc_periodic r = true /\ on_segment f1 f2 p).
Proof.
  intros O1 O2 D1 D2 K1 K2 J. destruct (join_full len c1 c2 n1 n2 O1 O2) as (o & E & _ & H). rewrite J in E. injection E as <-.
  destruct (H r eq_refl) as (l1 & l2 & (A1 & A2 & T) & (Dr & R) & _ & G0 & G1 & G2). clear H. fold d4 in *.
  pose proof O1 as (G1' & _ & _ & W1 & _). pose proof O2 as (G2' & _ & _ & W2 & _).
  pose proof (way_length _ _ A1) as L1. pose proof (way_length _ _ A2) as L2. pose proof G1' as (P1 & V1 & _). pose proof G2' as (P2 & V2 & _).
  pose proof V1 as (Vn1 & _). pose proof V2 as (Vn2 & _). rewrite D1 in *. rewrite D2 in *.
  assert (positive_weights (l1 ++ l2)) as WL by (apply positive_app; eapply positive_way; eassumption).
  assert (l1 <> []) as N1 by (intros F; rewrite F in L1; cbn in L1; lia). assert (l2 <> []) as N2 by (intros F; rewrite F in L2; cbn in L2; lia).
  assert (length (nc_cps r) = length (l1 ++ l2) \/ length (nc_cps r) = S (length (l1 ++ l2))) as LR.
  { destruct R as [(_ & -> & _)|(_ & [->| ->] & _)]; auto. right. rewrite app_length, firstn_length_le; [lia|]. rewrite app_length. lia. }
  rewrite app_length in LR.
  set (n := (length (nc_cps r) - 1)%nat). assert (length (nc_cps r) = S n) as Ln by (unfold n; lia).
  assert (positive_weights (nc_cps r)) as WR.
  { destruct R as [(_ & -> & _)|(_ & [->| ->] & _)]; [assumption|assumption|]. apply positive_app; [assumption|]. intros q Hq. apply WL. rewrite <- (firstn_skipn 1 (l1 ++ l2)). apply in_app_iff. left. assumption. }
  assert (simple_knots n 1 (nc_knots r) /\ valid_knots n 1 (nc_knots r)) as [KR VR].
  { destruct (nc_periodic r) eqn:EP.
    - rewrite (G1 eq_refl), Ln. split; [apply periodic_simple|apply periodic_valid; lia].
    - destruct R as [(_ & Ec & _)|(F & _)]; [|discriminate]. apply gen_simple; [lia|]. rewrite <- Ln, Ec. apply G0. reflexivity. }
  assert (good_curve r n) as GR by (split; [assumption|split; [rewrite Dr; assumption|lia]]).
  assert (exists f1, ends c1 f1 (xyz (last l1 d4)) /\ f1 = xyz (nth 0 l1 d4)) as (f1 & F1 & EF1).
  { destruct A1 as [->| ->]; [exists (first_point c1); split; [left; auto|reflexivity]|exists (last_point c1); split; [right; split; [reflexivity|]|]].
    - rewrite last_rev. reflexivity.
    - rewrite first_rev. reflexivity. }
  assert (exists f2, ends c2 f2 (xyz (nth 0 l2 d4)) /\ f2 = xyz (last l2 d4)) as (f2 & F2 & EF2).
  { destruct A2 as [->| ->]; [exists (last_point c2); split; [right; auto|reflexivity]|exists (first_point c2); split; [left; split; [reflexivity|]|]].
    - rewrite first_rev. reflexivity.
    - rewrite last_rev. reflexivity. }
  exists n, f1, (xyz (last l1 d4)), f2, (xyz (nth 0 l2 d4)). split; [assumption|]. split; [assumption|]. split; [assumption|]. split; [assumption|].
  intros p. rewrite (polygon_top r n p GR Dr WR KR), (polygon_top c1 n1 p G1' D1 W1 K1), (polygon_top c2 n2 p G2' D2 W2 K2).
  rewrite <- (polygon_way l1 _ p A1), <- (polygon_way l2 _ p A2).
  assert (map xyz l1 <> []) as M1 by (intros F; apply map_eq_nil in F; contradiction). assert (map xyz l2 <> []) as M2 by (intros F; apply map_eq_nil in F; contradiction).
  assert (on_polygon (map xyz (l1 ++ l2)) p <-> on_polygon (map xyz l1) p \/ on_polygon (map xyz l2) p \/ on_segment (xyz (last l1 d4)) (xyz (nth 0 l2 d4)) p) as KL.
  { rewrite map_app, (polygon_app' _ _ p (xyz d4) M1 M2), map_last by assumption. rewrite map_nth. tauto. }
  assert (last (l1 ++ l2) d4 = last l2 d4) as ELast by (apply last_app; assumption).
  assert (nth 0 (l1 ++ l2) d4 = nth 0 l1 d4) as EFirst by (destruct l1; [contradiction|reflexivity]).
  destruct R as [(EP & Ec & _)|(EP & [Ec|Ec] & _)]; rewrite EP, Ec.
  - rewrite KL. intuition discriminate.
  - assert (f1 = f2) as Ef.
    { rewrite EF1, EF2, <- ELast, <- EFirst. f_equal. rewrite (G2 EP Ec 0%nat ltac:(lia)). rewrite nth_last. f_equal. lia. }
    assert (on_segment f1 f2 p -> on_polygon (map xyz l1) p) as KK.
    { intros Hs. rewrite <- Ef in Hs. apply segment_point in Hs. subst p. rewrite EF1. destruct l1 as [|x [|y l1']]; [contradiction|cbn in L1; lia|]. left. apply segment_start. }
    rewrite KL. tauto.
  - assert (on_polygon (map xyz ((l1 ++ l2) ++ firstn 1 (l1 ++ l2))) p <-> on_polygon (map xyz (l1 ++ l2)) p \/ on_segment f1 f2 p) as KC.
    { rewrite map_app. rewrite (polygon_app' _ _ p (xyz d4)).
      2:{ rewrite map_app. intros F. apply app_eq_nil in F. destruct F; contradiction. } 2:{ destruct l1; [contradiction|]. discriminate. }
      rewrite map_last by (intros F; apply app_eq_nil in F; destruct F; contradiction). rewrite ELast.
      replace (nth 0 (map xyz (firstn 1 (l1 ++ l2))) (xyz d4)) with f1. 2:{ rewrite EF1. destruct l1; [contradiction|]. reflexivity. }
      rewrite <- EF2, (segment_sym f2 f1). assert (on_polygon (map xyz (firstn 1 (l1 ++ l2))) p <-> False) as ->; [|tauto]. destruct l1; [contradiction|]. reflexivity. }
    rewrite KC, KL. intuition.
Qed.
