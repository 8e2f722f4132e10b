(** convex_hull2d: the Graham scan. *)
From Coq Require Import List ZArith QArith Qcanon Bool Lia Lqa Field Permutation.
From Verif Require Import Base BaseFacts LoopFacts ModelVec ModelAabb ModelPolygon SpecNurbs SpecPolygon ProofBspline ProofSurface ProofMinimize ProofPolygon ProofSat ProofPip ProofConvex.
Import ListNotations.
Open Scope Qc_scope.

(** ** vertices of the result are points of the input *)
Lemma set_nth_split {A} : forall (l1 : list A) x l2 y, set_nth (l1 ++ x :: l2) (length l1) y = Ok (l1 ++ y :: l2).
Proof. induction l1 as [|a l1 IH]; intros; cbn [app length set_nth]; [reflexivity|]. rewrite IH. reflexivity. Qed.
Lemma swap_front_ok P k : (k < length P)%nat -> exists rest, swap_front P k = Ok (pt P k :: rest) /\ Permutation (pt P k :: rest) P.
Proof.
  intros H. unfold swap_front. destruct P as [|a t]; [cbn in H; lia|]. change (get (a :: t) 0) with (Ok a). cbn [bind].
  rewrite (get_ok (a :: t) k (V2 0 0)) by exact H. cbn [bind]. fold (pt (a :: t) k). destruct k as [|k].
  - change (pt (a :: t) 0) with a. cbn [set_nth bind]. exists t. split; reflexivity.
  - change (set_nth (a :: t) 0 (pt (a :: t) (S k))) with (Ok (pt (a :: t) (S k) :: t)). cbn [bind]. cbn [length] in H.
    destruct (nth_split t (V2 0 0) (n := k)) as (l1 & l2 & E & L); [lia|]. change (pt (a :: t) (S k)) with (nth k t (V2 0 0)).
    set (b := nth k t (V2 0 0)) in *. cbn [set_nth]. rewrite E, <- L, set_nth_split. cbn [bind]. exists (l1 ++ a :: l2). split; [reflexivity|].
    rewrite <- (Permutation_middle l1 l2 a), <- (Permutation_middle l1 l2 b). apply perm_swap.
Qed.
Lemma lowest_index_ok P : P <> [] -> exists k, lowest_index P = Ok k /\ (k < length P)%nat.
Proof.
  intros NE. unfold lowest_index. assert (0 < length P)%nat as L by (destruct P; [congruence|cbn; lia]).
  destruct (for_up_inv (fun _ k => (k < length P)%nat) (fun i ymin => a <- get P i ;; b <- get P ymin ;;
    Ok (if (uy a <? uy b) || ((Qcabs (uy a - uy b) <? lit_1em9) && (ux a <? ux b)) then i else ymin)) (length P - 1) 1 0%nat) as (k & E & H); [exact L| |eauto].
  intros i k Hi1 Hi2 Hk. rewrite (get_ok P i (V2 0 0)), (get_ok P k (V2 0 0)) by lia. cbn [bind]. eexists. split; [reflexivity|]. destruct (_ || _)%bool; lia.
Qed.
Lemma keep_far_incl p0 l : incl (keep_far p0 l) l.
Proof.
  induction l as [|p l IH]; [apply incl_refl|]. cbn [keep_far]. destruct l as [|q l]; [apply incl_refl|].
  destruct (Nat.eqb _ _); [apply incl_tl, IH|]. intros x [->|H]; [left; reflexivity|right; apply IH, H].
Qed.
Lemma pop_incl p : forall h, incl (pop_right h p) h.
Proof.
  induction h as [|b h IH]; [apply incl_refl|]. cbn [pop_right]. destruct h as [|a h]; [apply incl_refl|]. destruct (negb _); [apply incl_tl, IH|apply incl_refl].
Qed.
Lemma scan_incl : forall rest h, incl (scan h rest) (h ++ rest).
Proof.
  induction rest as [|p rest IH]; intros h; [rewrite app_nil_r; apply incl_refl|]. unfold scan. cbn [fold_left]. fold (scan (p :: pop_right h p) rest).
  intros x Hx. apply IH in Hx. apply in_app_or in Hx. apply in_or_app. destruct Hx as [[->|Hx]|Hx]; [right; left; reflexivity|left; apply (pop_incl p), Hx|right; right; exact Hx].
Qed.
Lemma hull_vertices : forall sort P, (forall cmp l, Permutation (sort cmp l) l) ->
  exists R, convex_hull2d sort P = Ok R /\ incl R P.
Proof.
  intros sort P S. unfold convex_hull2d. destruct (Nat.ltb_spec (length P) 3) as [L|L]; [exists P; split; [reflexivity|apply incl_refl]|].
  destruct (lowest_index_ok P) as (k & E & Hk); [destruct P; [cbn in L; lia|discriminate]|]. rewrite E. cbn [bind].
  destruct (swap_front_ok P k Hk) as (rest & E2 & PM). rewrite E2. cbn [bind]. set (p0 := pt P k) in *.
  set (l := keep_far p0 (sort (point_before p0) rest)).
  assert (incl l P) as IL.
  { intros x Hx. apply (Permutation_in _ PM). right. apply (Permutation_in _ (S (point_before p0) rest)). apply (keep_far_incl p0), Hx. }
  destruct l as [|p1 [|p2 more]]; [exists []; split; [reflexivity|intros x []]|exists []; split; [reflexivity|intros x []]|].
  eexists. split; [reflexivity|]. intros x Hx. apply in_rev in Hx. apply scan_incl in Hx. apply in_app_or in Hx. destruct Hx as [[<-|[<-|[<-|[]]]]|Hx].
  - apply IL. right. left. reflexivity.
  - apply IL. left. reflexivity.
  - apply (Permutation_in _ PM). left. reflexivity.
  - apply IL. right. right. exact Hx.
Qed.

(** ** the orientation test *)
Lemma orient_turn p q r : orient_val p q r = - turn p q r.
Proof. unfold orient_val, turn. ring. Qed.
Lemma orient_left p q r : lit_1em9 <= Qcabs (turn p q r) -> (orientation p q r = 2%nat <-> 0 < turn p q r) /\ (orientation p q r <> 2%nat -> turn p q r < 0) /\ orientation p q r <> 0%nat.
Proof.
  intros H. assert (0 < lit_1em9) as LP by (vm_compute; reflexivity). set (e := lit_1em9) in *.
  unfold orientation. fold e. rewrite orient_turn. set (t := turn p q r) in *. clearbody t e.
  assert (Qcabs (- t) = Qcabs t) as A by (destruct (Qcabs_cases t) as [(? & ->)|(? & ->)], (Qcabs_cases (- t)) as [(? & ->)|(? & ->)]; qc_lra). rewrite A.
  destruct (Qcltb_spec (Qcabs t) e) as [C|_]; [exfalso; exact (Qcle_not_lt _ _ H C)|].
  destruct (Qcabs_cases t) as [(S1 & E)|(S1 & E)]; rewrite E in H; destruct (Qcltb_spec 0 (- t)) as [C|C]; (split; [split|split]); intros; try reflexivity; try discriminate; try congruence; try qc_lra; exfalso; clear - C S1 H LP; qc_lra.
Qed.
Lemma orient_clear p q r : turn p q r = 0 \/ lit_1em9 <= Qcabs (turn p q r) -> (orientation p q r = 2%nat <-> 0 < turn p q r) /\ (orientation p q r = 0%nat <-> turn p q r = 0).
Proof.
  intros [H|H].
  - unfold orientation. rewrite orient_turn, H. change (Qcabs (- 0) <? lit_1em9) with true. cbv iota. split; split; intros X; try reflexivity; try discriminate; exfalso; apply (Qclt_not_eq _ _ X eq_refl).
  - destruct (orient_left p q r H) as (A & _ & C). split; [exact A|]. split; [intros X; contradiction|]. intros X. exfalso. rewrite X in H. vm_compute in H. apply H. reflexivity.
Qed.

(** ** the first point *)
Lemma lowest_ok P : P <> [] -> (forall a b, In a P -> In b P -> uy a = uy b \/ lit_1em9 <= Qcabs (uy a - uy b)) ->
  exists k, lowest_index P = Ok k /\ (k < length P)%nat /\ forall q, In q P -> uy (pt P k) < uy q \/ (uy (pt P k) = uy q /\ ux (pt P k) <= ux q).
Proof.
  intros NE GP. unfold lowest_index. assert (0 < length P)%nat as L by (destruct P; [congruence|cbn; lia]).
  destruct (for_up_inv (fun n k => (k < length P)%nat /\ forall j, (j < n)%nat -> uy (pt P k) < uy (pt P j) \/ (uy (pt P k) = uy (pt P j) /\ ux (pt P k) <= ux (pt P j))) (fun i ymin => a <- get P i ;; b <- get P ymin ;;
    Ok (if (uy a <? uy b) || ((Qcabs (uy a - uy b) <? lit_1em9) && (ux a <? ux b)) then i else ymin)) (length P - 1) 1 0%nat) as (k & E & H & M).
  - split; [exact L|]. intros j Hj. replace j with 0%nat by lia. right. split; [reflexivity|apply Qcle_refl].
  - intros i k Hi1 Hi2 (Hk & M). rewrite (get_ok P i (V2 0 0)), (get_ok P k (V2 0 0)) by lia. cbn [bind]. fold (pt P i). fold (pt P k). eexists. split; [reflexivity|].
    assert (In (pt P i) P) as I1 by (apply nth_In; lia). assert (In (pt P k) P) as I2 by (apply nth_In; lia).
    assert (0 < lit_1em9) as LP by (vm_compute; reflexivity).
    pose proof (GP _ _ I1 I2) as G. set (a := pt P i) in *. set (b := pt P k) in *.
    destruct (Qcltb_spec (uy a) (uy b)) as [C1|C1]; cbn [orb].
    + split; [lia|]. intros j Hj. destruct (Nat.eq_dec j i) as [->|N]; [right; split; [reflexivity|apply Qcle_refl]|].
      left. destruct (M j ltac:(lia)) as [C|(C & _)]; [fold a; clear - C C1; qc_lra|fold a; rewrite <- C; exact C1].
    + destruct (Qcltb_spec (Qcabs (uy a - uy b)) lit_1em9) as [C2|C2]; cbn [andb].
      * destruct G as [G|G]; [|exfalso; exact (Qcle_not_lt _ _ G C2)]. destruct (Qcltb_spec (ux a) (ux b)) as [C3|C3].
        -- split; [lia|]. intros j Hj. destruct (Nat.eq_dec j i) as [->|N]; [right; split; [reflexivity|apply Qcle_refl]|]. fold a.
           destruct (M j ltac:(lia)) as [C|(C & D)]; [left; rewrite G; exact C|right; split; [rewrite G; exact C|clear - C3 D; qc_lra]].
        -- split; [lia|]. intros j Hj. destruct (Nat.eq_dec j i) as [->|N]; [|apply M; lia]. right. fold a. fold b. split; [symmetry; exact G|apply Qcnot_lt_le, C3].
      * split; [lia|]. intros j Hj. destruct (Nat.eq_dec j i) as [->|N]; [|apply M; lia]. fold a. fold b. left.
        destruct G as [G|G]; [exfalso; apply C2; rewrite G; replace (uy b - uy b) with 0 by ring; exact LP|].
        destruct (Qcabs_cases (uy a - uy b)) as [(? & E)|(? & E)]; rewrite E in G; generalize dependent lit_1em9; intros e; intros; qc_lra.
  - exists k. split; [exact E|]. split; [exact H|]. intros q Hq. destruct (In_nth _ _ (V2 0 0) Hq) as (j & Hj & <-). apply M. lia.
Qed.

(** ** the order by angle *)
Lemma upper_order u1 u2 v1 v2 w1 w2 : 0 < u2 \/ (u2 = 0 /\ 0 < u1) -> 0 < v2 \/ (v2 = 0 /\ 0 < v1) -> 0 < w2 \/ (w2 = 0 /\ 0 < w1) ->
  0 <= u1 * v2 - u2 * v1 -> 0 <= v1 * w2 - v2 * w1 ->
  (0 < u1 * v2 - u2 * v1 \/ 0 < v1 * w2 - v2 * w1 -> 0 < u1 * w2 - u2 * w1) /\ (u1 * v2 - u2 * v1 = 0 -> v1 * w2 - v2 * w1 = 0 -> u1 * w2 - u2 * w1 = 0).
Proof.
  intros A B C H1 H2. destruct B as [B|(-> & B)].
  - destruct C as [C|(-> & C)]; [|exfalso; pose proof (Qcmul_pos _ _ B C); clear - H H2; qc_lra].
    destruct A as [A|(-> & A)].
    + assert (v2 * (u1 * w2 - u2 * w1) = w2 * (u1 * v2 - u2 * v1) + u2 * (v1 * w2 - v2 * w1)) as E by ring.
      set (x := u1 * v2 - u2 * v1) in *. set (y := v1 * w2 - v2 * w1) in *. set (z := u1 * w2 - u2 * w1) in *. clearbody x y z. split.
      * intros X. apply (mul_pos_cancel v2 _ B). rewrite E. pose proof (Qcmul_nonneg _ _ (Qclt_le_weak _ _ C) H1) as P1. pose proof (Qcmul_nonneg _ _ (Qclt_le_weak _ _ A) H2) as P2.
        destruct X as [X|X]; [pose proof (Qcmul_pos _ _ C X) as P3|pose proof (Qcmul_pos _ _ A X) as P3]; set (s := w2 * x) in *; set (t := u2 * y) in *; clearbody s t; clear - P1 P2 P3; qc_lra.
      * intros -> ->. destruct (Qcmult_integral v2 z) as [F|F]; [rewrite E; ring|exfalso; rewrite F in B; exact (Qclt_not_eq _ _ B eq_refl)|exact F].
    + pose proof (Qcmul_pos _ _ A C) as P1. pose proof (Qcmul_pos _ _ A B) as P2. split; [intros _; clear - P1; qc_lra|]. intros X. exfalso. clear - P2 X. qc_lra.
  - destruct A as [A|(-> & A)]; [exfalso; pose proof (Qcmul_pos _ _ A B); clear - H H1; qc_lra|].
    destruct C as [C|(-> & C)].
    + pose proof (Qcmul_pos _ _ A C) as P1. pose proof (Qcmul_pos _ _ B C) as P2. split; [intros _; clear - P1; qc_lra|]. intros _ X. exfalso. clear - P2 X. qc_lra.
    + split; [intros [X|X]; exfalso; clear - X; qc_lra|]. intros _ _. ring.
Qed.
(** the two vectors are equal if they have the same direction and length *)
Lemma upper_same u1 u2 v1 v2 : 0 < u2 \/ (u2 = 0 /\ 0 < u1) -> 0 < v2 \/ (v2 = 0 /\ 0 < v1) -> u1 * v2 - u2 * v1 = 0 -> u1 * u1 + u2 * u2 <= v1 * v1 + v2 * v2 ->
  exists t, 0 <= t /\ t <= 1 /\ u1 = t * v1 /\ u2 = t * v2 /\ (u1 * u1 + u2 * u2 = v1 * v1 + v2 * v2 -> t = 1).
Proof.
  intros A B H D. assert (exists t, 0 < t /\ u1 = t * v1 /\ u2 = t * v2) as (t & T & E1 & E2).
  { destruct B as [B|(-> & B)].
    - assert (v2 <> 0) as N by (intros X; rewrite X in B; exact (Qclt_not_eq _ _ B eq_refl)). exists (u2 / v2).
      assert (u2 = u2 / v2 * v2) as F by (field; exact N). destruct A as [A|(-> & A)]; [|exfalso; pose proof (Qcmul_pos _ _ A B) as P; clear - P H; qc_lra].
      split; [apply (mul_pos_cancel v2 _ B); replace (v2 * (u2 / v2)) with u2 by (field; exact N); exact A|]. split; [|exact F].
      transitivity (u1 * v2 / v2); [field; exact N|]. replace (u1 * v2) with (u2 * v1) by (clear - H; qc_lra). field. exact N.
    - assert (v1 <> 0) as N by (intros X; rewrite X in B; exact (Qclt_not_eq _ _ B eq_refl)). destruct A as [A|(-> & A)]; [exfalso; pose proof (Qcmul_pos _ _ A B) as P; clear - P H; qc_lra|].
      exists (u1 / v1). split; [apply (mul_pos_cancel v1 _ B); replace (v1 * (u1 / v1)) with u1 by (field; exact N); exact A|]. split; [field; exact N|ring]. }
  subst u1 u2. set (q := v1 * v1 + v2 * v2) in *. assert (0 < q) as Q.
  { unfold q. destruct B as [B|(-> & B)]; pose proof (Qcmul_pos _ _ B B) as P; [pose proof (Qc_sq_nonneg v1) as R; set (x := v1 * v1) in *; set (y := v2 * v2) in *; clearbody x y; clear - P R; qc_lra|clear - P; qc_lra]. }
  replace (t * v1 * (t * v1) + t * v2 * (t * v2)) with (t * t * q) in * by (unfold q; ring). clearbody q. clear H A B.
  assert (t <= 1) as LE.
  { apply Qcnot_lt_le. intros X. assert (1 < t * t) as Y by (clear - X; qc_nra). assert (0 < (t * t - 1) * q) as Z by (apply Qcmul_pos; [clear - Y; qc_lra|exact Q]). clear - Z D. qc_lra. }
  exists t. split; [apply Qclt_le_weak; exact T|]. split; [exact LE|]. split; [reflexivity|]. split; [reflexivity|]. intros E.
  assert ((t - 1) * ((t + 1) * q) = 0) as Z by (replace ((t - 1) * ((t + 1) * q)) with (t * t * q - q) by ring; rewrite E; ring).
  apply Qcmult_integral in Z as [Z|Z]; [clear - Z; qc_lra|]. exfalso. assert (0 < (t + 1) * q) as P by (apply Qcmul_pos; [clear - T; qc_lra|exact Q]). rewrite Z in P. exact (Qclt_not_eq _ _ P eq_refl).
Qed.
Lemma upper p0 q : above p0 q -> 0 < uy q - uy p0 \/ (uy q - uy p0 = 0 /\ 0 < ux q - ux p0).
Proof. unfold above. intros [H|(H1 & H2)]; [left|right; split]; qc_lra. Qed.
Lemma angle_order p0 a b c : above p0 a -> above p0 b -> above p0 c -> 0 <= turn p0 a b -> 0 <= turn p0 b c ->
  (0 < turn p0 a b \/ 0 < turn p0 b c -> 0 < turn p0 a c) /\ (turn p0 a b = 0 -> turn p0 b c = 0 -> turn p0 a c = 0).
Proof.
  intros A B C. apply upper in A. apply upper in B. apply upper in C. apply upper_order; assumption.
Qed.

Lemma Qclt_irrefl (x : Qc) : ~ x < x. Proof. intros H. exact (Qclt_not_eq _ _ H eq_refl). Qed.
Lemma turn_diag_23 a b : turn a b b = 0. Proof. unfold turn. ring. Qed.
Lemma turn_diag_12 a b : turn a a b = 0. Proof. unfold turn. ring. Qed.
Lemma turn_diag_13 a b : turn a b a = 0. Proof. unfold turn. ring. Qed.
Lemma turn_swap a b c : turn a c b = - turn a b c. Proof. unfold turn. ring. Qed.
Lemma turn_neq a b c : 0 < turn a b c -> a <> b /\ a <> c /\ b <> c.
Proof. intros H. split; [|split]; intros ->; revert H; rewrite ?turn_diag_12, ?turn_diag_13, ?turn_diag_23; exact (Qclt_irrefl 0). Qed.

Lemma above_not p0 : ~ above p0 p0.
Proof. intros [H|(_ & H)]; exact (Qclt_irrefl _ H). Qed.
Lemma dist_self p : dist_sq2 p p = 0. Proof. unfold dist_sq2. ring. Qed.
Lemma dist_above p0 q : above p0 q -> 0 < dist_sq2 p0 q.
Proof.
  intros A. apply upper in A. unfold dist_sq2. replace ((ux p0 - ux q) * (ux p0 - ux q) + (uy p0 - uy q) * (uy p0 - uy q)) with ((ux q - ux p0) * (ux q - ux p0) + (uy q - uy p0) * (uy q - uy p0)) by ring.
  set (x := ux q - ux p0) in *. set (y := uy q - uy p0) in *. clearbody x y. destruct A as [A|(-> & A)]; pose proof (Qcmul_pos _ _ A A) as P; [pose proof (Qc_sq_nonneg x) as R; set (u := x * x) in *; set (v := y * y) in *; clearbody u v; clear - P R; qc_lra|clear - P; qc_lra].
Qed.
(** one point is on the segment from [p0] to another one in the same direction that is not closer *)
Lemma same_ray p0 a b : above p0 a -> above p0 b -> turn p0 a b = 0 -> dist_sq2 p0 a <= dist_sq2 p0 b ->
  in_hull [p0; b] a /\ (dist_sq2 p0 a = dist_sq2 p0 b -> a = b).
Proof.
  intros A B T D. apply upper in A. apply upper in B. unfold turn in T. assert (forall p q, dist_sq2 p q = (ux q - ux p) * (ux q - ux p) + (uy q - uy p) * (uy q - uy p)) as DE by (intros; unfold dist_sq2; ring).
  rewrite !DE in *. destruct (upper_same _ _ _ _ A B T D) as (t & T0 & T1 & E1 & E2 & E3). split.
  - exists (fun i => match i with O => 1 - t | _ => t end). split; [intros [|i]; [clear - T1; qc_lra|exact T0]|]. split; [cbn [qsum length]; ring|]. cbn [qsum length pt nth]. split.
    + clear - E1. qc_push. lra.
    + clear - E2. qc_push. lra.
  - intros E. specialize (E3 E). subst t. apply v2_eq; clear - E1 E2; qc_lra.
Qed.

Section Order.
Variables (p0 : vec2) (l : list vec2).
Hypothesis Gen : forall a b, In a l -> In b l -> turn p0 a b = 0 \/ lit_1em9 <= Qcabs (turn p0 a b).
Hypothesis Up : forall a, In a l -> a = p0 \/ above p0 a.
Lemma before_spec a b : In a l -> In b l -> (point_before p0 a b = true <-> 0 < turn p0 a b \/ (turn p0 a b = 0 /\ dist_sq2 p0 a < dist_sq2 p0 b)).
Proof.
  intros A B. destruct (orient_clear p0 a b (Gen a b A B)) as (O2 & O0). unfold point_before. destruct (Nat.eqb_spec (orientation p0 a b) 0) as [E|E].
  - apply O0 in E. destruct (Qcltb_spec (dist_sq2 p0 a) (dist_sq2 p0 b)) as [C|C]; split; intros X; try discriminate; try reflexivity; [right; auto|]. exfalso. destruct X as [X|(_ & X)]; [rewrite E in X; exact (Qclt_irrefl _ X)|exact (C X)].
  - rewrite Nat.eqb_eq, O2. split; [left; assumption|]. intros [X|(X & _)]; [exact X|exfalso; apply E, O0, X].
Qed.
(** the second one is not before the first one *)
Lemma not_before a b : In a l -> In b l -> point_before p0 b a = false -> 0 < turn p0 a b \/ (turn p0 a b = 0 /\ dist_sq2 p0 a <= dist_sq2 p0 b).
Proof.
  intros A B F. assert (~ (0 < turn p0 b a \/ (turn p0 b a = 0 /\ dist_sq2 p0 b < dist_sq2 p0 a))) as N by (intros X; apply (before_spec b a B A) in X; congruence). rewrite turn_swap in N.
  destruct (Qclt_le_dec 0 (turn p0 a b)) as [X|X]; [left; exact X|right]. assert (turn p0 a b = 0) as E.
  { apply Qcle_antisym; [exact X|]. apply Qcnot_lt_le. intros Y. apply N. left. clear - Y. qc_lra. }
  split; [exact E|]. apply Qcnot_lt_le. intros Y. apply N. right. split; [rewrite E; ring|exact Y].
Qed.
Lemma before_above a b : In a l -> In b l -> point_before p0 a b = true -> above p0 b.
Proof.
  intros A B H. destruct (Up b B) as [->|X]; [exfalso|exact X]. apply (before_spec a p0 A B) in H. rewrite turn_diag_13, dist_self in H. destruct H as [H|(_ & H)]; [exact (Qclt_irrefl _ H)|].
  destruct (Up a A) as [->|Y]; [rewrite dist_self in H; exact (Qclt_irrefl _ H)|]. apply dist_above in Y. clear - H Y. qc_lra.
Qed.
Lemma before_order : strict_weak_order (point_before p0) l.
Proof.
  assert (forall a, In a l -> point_before p0 a a = false) as IRR.
  { intros a A. destruct (point_before p0 a a) eqn:E; [exfalso|reflexivity]. apply (before_spec a a A A) in E. rewrite turn_diag_23 in E. destruct E as [E|(_ & E)]; exact (Qclt_irrefl _ E). }
  split; [exact IRR|split].
  - intros a b c A B C H1 H2. pose proof (before_above a b A B H1) as Ab. pose proof (before_above b c B C H2) as Ac. apply (before_spec a c A C).
    destruct (Up a A) as [->|Aa]; [right; rewrite turn_diag_12, dist_self; split; [reflexivity|apply dist_above; exact Ac]|].
    apply (before_spec a b A B) in H1. apply (before_spec b c B C) in H2.
    assert (0 <= turn p0 a b) as P1 by (destruct H1 as [X|(X & _)]; [apply Qclt_le_weak; exact X|rewrite X; apply Qcle_refl]).
    assert (0 <= turn p0 b c) as P2 by (destruct H2 as [X|(X & _)]; [apply Qclt_le_weak; exact X|rewrite X; apply Qcle_refl]).
    destruct (angle_order p0 a b c Aa Ab Ac P1 P2) as (S1 & S2). destruct H1 as [H1|(H1 & D1)]; [left; apply S1; left; exact H1|]. destruct H2 as [H2|(H2 & D2)]; [left; apply S1; right; exact H2|].
    right. split; [apply S2; assumption|]. exact (Qclt_trans _ _ _ D1 D2).
  - assert (forall a b, In a l -> In b l -> point_before p0 a b = false -> point_before p0 b a = false -> a = b) as EQ.
    { intros a b A B F1 F2. apply (not_before b a B A) in F1. apply (not_before a b A B) in F2. rewrite turn_swap in F1.
      destruct F2 as [F2|(E & F2)]; [exfalso; destruct F1 as [F1|(F1 & _)]; clear - F1 F2; qc_lra|]. destruct F1 as [F1|(_ & F1)]; [exfalso; rewrite E in F1; clear - F1; qc_lra|].
      pose proof (Qcle_antisym _ _ F2 F1) as ED. destruct (Up a A) as [->|Aa], (Up b B) as [->|Ab]; [reflexivity|exfalso; rewrite dist_self in F1; apply dist_above in Ab; exact (Qcle_not_lt _ _ F1 Ab)|exfalso; rewrite dist_self in F2; apply dist_above in Aa; exact (Qcle_not_lt _ _ F2 Aa)|].
      exact (proj2 (same_ray p0 a b Aa Ab E F2) ED). }
    intros a b c A B C F1 F2 F3 F4. pose proof (EQ a b A B F1 F2) as ->. split; assumption.
Qed.
End Order.

(** what is left after the loop: one point in each direction, the others are on
    the segments to them *)
Lemma keep_far_ok p0 : forall l, (forall a b, In a l -> In b l -> turn p0 a b = 0 \/ lit_1em9 <= Qcabs (turn p0 a b)) -> (forall a, In a l -> a = p0 \/ above p0 a) ->
  ForallOrdPairs (fun a b => point_before p0 b a = false) l ->
  ForallOrdPairs (fun a b => 0 < turn p0 a b) (keep_far p0 l) /\ forall a, In a l -> exists b, In b (keep_far p0 l) /\ in_hull [p0; b] a /\ turn p0 a b = 0 /\ (a = p0 \/ above p0 b).
Proof.
  induction l as [|p l IH]; intros G U F; [split; [constructor|intros a []]|]. inversion F as [|? ? F1 F2]; subst. cbn [keep_far].
  destruct l as [|q l].
  - split; [repeat constructor|]. intros a [<-|[]]. exists p. split; [left; reflexivity|]. split; [apply point_in_hull; right; left; reflexivity|]. split; [apply turn_diag_23|exact (U p (or_introl eq_refl))].
  - assert (In p (p :: q :: l)) as Ip by (left; reflexivity). assert (In q (p :: q :: l)) as Iq by (right; left; reflexivity).
    assert (forall x, In x (q :: l) -> 0 < turn p0 p x \/ (turn p0 p x = 0 /\ dist_sq2 p0 p <= dist_sq2 p0 x)) as NB.
    { intros x X. apply (not_before p0 (p :: q :: l) G p x Ip (or_intror X)). exact (proj1 (Forall_forall _ _) F1 x X). }
    destruct IH as (I1 & I2); [intros a b A B; apply G; right; assumption|intros a A; apply U; right; exact A|exact F2|].
    destruct (orient_clear p0 p q (G p q Ip Iq)) as (_ & O0). destruct (Nat.eqb_spec (orientation p0 p q) 0) as [E|E].
    + split; [exact I1|]. intros a [<-|A]; [|exact (I2 a A)]. apply O0 in E. destruct (I2 q (or_introl eq_refl)) as (b & B1 & B2 & B3 & B4). exists b. split; [exact B1|].
      destruct (U p Ip) as [->|Ap]; [split; [apply point_in_hull; left; reflexivity|split; [apply turn_diag_12|left; reflexivity]]|].
      destruct (NB q (or_introl eq_refl)) as [X|(_ & D)]; [exfalso; rewrite E in X; exact (Qclt_irrefl _ X)|].
      destruct (U q Iq) as [->|Aq]; [exfalso; rewrite dist_self in D; apply dist_above in Ap; exact (Qcle_not_lt _ _ D Ap)|].
      destruct B4 as [->|Ab]; [exfalso; exact (above_not _ Aq)|].
      split; [apply (in_hull_incl [p0; q]); [exact (proj1 (same_ray p0 p q Ap Aq E D))|intros x [<-|[<-|[]]]; [apply point_in_hull; left; reflexivity|exact B2]]|].
      split; [|right; exact Ab]. apply (angle_order p0 p q b); try assumption; [rewrite E|rewrite B3]; apply Qcle_refl.
    + assert (turn p0 p q <> 0) as NZ by (intros X; apply E, O0, X). assert (0 < turn p0 p q) as T by (destruct (NB q (or_introl eq_refl)) as [X|(X & _)]; [exact X|contradiction]).
      assert (above p0 p) as Ap by (destruct (U p Ip) as [->|X]; [exfalso; apply NZ, turn_diag_12|exact X]). assert (above p0 q) as Aq by (destruct (U q Iq) as [->|X]; [exfalso; apply NZ, turn_diag_13|exact X]).
      split.
      * constructor; [|exact I1]. apply Forall_forall. intros x X. apply keep_far_incl in X. destruct (NB x X) as [Y|(Y & _)]; [exact Y|exfalso].
        destruct X as [<-|X]; [contradiction|]. assert (0 < turn p0 q x \/ turn p0 q x = 0 /\ dist_sq2 p0 q <= dist_sq2 p0 x) as Z.
        { inversion F2 as [|? ? F3 _]; subst. apply (not_before p0 (p :: q :: l) G q x Iq); [right; right; exact X|]. exact (proj1 (Forall_forall _ _) F3 x X). }
        assert (above p0 x) as Ax.
        { destruct (U x (or_intror (or_intror X))) as [->|A]; [exfalso|exact A]. rewrite turn_diag_13, dist_self in Z. destruct Z as [Z|(_ & Z)]; [exact (Qclt_irrefl _ Z)|]. apply dist_above in Aq. exact (Qcle_not_lt _ _ Z Aq). }
        destruct (angle_order p0 p q x Ap Aq Ax (Qclt_le_weak _ _ T)) as (S1 & _); [destruct Z as [Z|(-> & _)]; [apply Qclt_le_weak; exact Z|apply Qcle_refl]|]. specialize (S1 (or_introl T)). rewrite Y in S1. exact (Qclt_irrefl _ S1).
      * intros a [<-|A]; [exists p; split; [left; reflexivity|]; split; [apply point_in_hull; right; left; reflexivity|]; split; [apply turn_diag_23|right; exact Ap]|].
        destruct (I2 a A) as (b & B1 & B2). exists b. split; [right; exact B1|exact B2].
Qed.

(** ** the stack *)
Definition strong (S : list vec2) : Prop := forall i j k, (i < j)%nat -> (j < k)%nat -> (k < length S)%nat -> 0 < turn (pt S k) (pt S j) (pt S i).
Definition before_all (p0 : vec2) (S : list vec2) (p : vec2) : Prop := forall i, (i < length S - 1)%nat -> 0 < turn p0 (pt S i) p.
Definition bottom (S : list vec2) : vec2 := pt S (length S - 1).

Lemma fan1 p0 a b y p : 0 < turn p0 a b -> 0 < turn p0 b p -> 0 < turn y a b -> 0 < turn a b p -> 0 < turn p0 y b -> 0 < turn y b p.
Proof.
  intros H1 H2 H3 H4 H5. apply (mul_pos_cancel (turn p0 a b)); [exact H1|].
  replace (turn p0 a b * turn y b p) with (turn p0 b p * turn y a b + turn a b p * turn p0 y b) by (unfold turn; ring).
  pose proof (Qcmul_pos _ _ H2 H3). pose proof (Qcmul_pos _ _ H4 H5). set (u := _ * _) in *. set (v := turn a b p * _) in *. clearbody u v. qc_lra.
Qed.
Lemma fan2 p0 x y b p : 0 < turn p0 y b -> 0 < turn y b p -> 0 < turn p0 x y -> 0 < turn x y b -> 0 < turn p0 y p -> 0 < turn x y p.
Proof.
  intros H1 H2 H3 H4 H5. apply (mul_pos_cancel (turn p0 y b)); [exact H1|].
  replace (turn p0 y b * turn x y p) with (turn y b p * turn p0 x y + turn x y b * turn p0 y p) by (unfold turn; ring).
  pose proof (Qcmul_pos _ _ H2 H3). pose proof (Qcmul_pos _ _ H4 H5). set (u := _ * _) in *. set (v := turn x y b * _) in *. clearbody u v. qc_lra.
Qed.
Lemma strong_tail b S : strong (b :: S) -> strong S.
Proof. intros H i j k I J K. apply (H (Datatypes.S i) (Datatypes.S j) (Datatypes.S k)); cbn [length]; lia. Qed.
Lemma push_strong S p : (2 <= length S)%nat -> strong S -> before_all (bottom S) S p -> 0 < turn (pt S 1) (pt S 0) p -> strong (p :: S).
Proof.
  intros L ST BA T. set (n := length S) in *.
  assert (forall k, (0 < k)%nat -> (k < n)%nat -> 0 < turn (pt S k) (pt S 0) p) as S1.
  { intros k K1 K2. destruct (Nat.eq_dec k (n - 1)) as [->|N1]; [apply (BA 0%nat); fold n; lia|]. destruct (Nat.eq_dec k 1) as [->|N2]; [exact T|].
    apply (fan1 (bottom S) (pt S 1)); [apply (ST 0 1 (n - 1))%nat; fold n; lia|apply (BA 0%nat); fold n; lia|apply (ST 0 1 k)%nat; fold n; lia|exact T|apply (ST 0%nat k (n - 1)%nat); fold n; lia]. }
  intros i j k I J K. destruct k as [|k]; [lia|]. destruct j as [|j]; [lia|]. cbn [length] in K. fold n in K. change (pt (p :: S) (Datatypes.S k)) with (pt S k). change (pt (p :: S) (Datatypes.S j)) with (pt S j).
  destruct i as [|i]; [|apply (ST i j k); fold n; lia]. change (pt (p :: S) 0) with p.
  destruct (Nat.eq_dec k (n - 1)) as [->|N1]; [apply (BA j); fold n; lia|]. destruct j as [|j]; [apply S1; lia|].
  apply (fan2 (bottom S) (pt S k) (pt S (Datatypes.S j)) (pt S 0) p).
  - apply (ST 0%nat (Datatypes.S j) (n - 1)%nat); fold n; lia.
  - apply S1; lia.
  - apply (ST (Datatypes.S j) k (n - 1)%nat); fold n; lia.
  - apply (ST 0%nat (Datatypes.S j) k); fold n; lia.
  - apply (BA (Datatypes.S j)); fold n; lia.
Qed.
Lemma in_triangle p0 a b p : 0 < turn p0 a p -> turn a b p <= 0 -> 0 < turn p0 b p -> 0 < turn p0 a b -> in_hull [p0; a; p] b.
Proof.
  intros T1 T2 T3 T4. assert (turn p0 a p <> 0) as NZ by (intros E; rewrite E in T1; exact (Qclt_irrefl _ T1)).
  exists (fun i => match i with O => - turn a b p / turn p0 a p | 1%nat => turn p0 b p / turn p0 a p | _ => turn p0 a b / turn p0 a p end).
  assert (forall x, 0 <= x -> 0 <= x / turn p0 a p) as D by (intros x X; apply Qcdiv_nonneg; assumption).
  assert (- turn a b p + turn p0 b p + turn p0 a b = turn p0 a p) as E by (unfold turn; ring).
  split; [|split; [|split]].
  - intros [|[|i]]; apply D; [clear - T2; qc_lra|apply Qclt_le_weak; assumption..].
  - cbn [qsum length]. replace (0 + - turn a b p / turn p0 a p + turn p0 b p / turn p0 a p + turn p0 a b / turn p0 a p) with ((- turn a b p + turn p0 b p + turn p0 a b) / turn p0 a p) by (field; exact NZ). rewrite E. field. exact NZ.
  - cbn [qsum length pt nth]. replace (0 + - turn a b p / turn p0 a p * ux p0 + turn p0 b p / turn p0 a p * ux a + turn p0 a b / turn p0 a p * ux p) with ((- turn a b p * ux p0 + turn p0 b p * ux a + turn p0 a b * ux p) / turn p0 a p) by (field; exact NZ).
    replace (- turn a b p * ux p0 + turn p0 b p * ux a + turn p0 a b * ux p) with (ux b * turn p0 a p) by (unfold turn; ring). field. exact NZ.
  - cbn [qsum length pt nth]. replace (0 + - turn a b p / turn p0 a p * uy p0 + turn p0 b p / turn p0 a p * uy a + turn p0 a b / turn p0 a p * uy p) with ((- turn a b p * uy p0 + turn p0 b p * uy a + turn p0 a b * uy p) / turn p0 a p) by (field; exact NZ).
    replace (- turn a b p * uy p0 + turn p0 b p * uy a + turn p0 a b * uy p) with (uy b * turn p0 a p) by (unfold turn; ring). field. exact NZ.
Qed.

Lemma pop_suffix p : forall S, S <> [] -> exists T S', S = T ++ S' /\ pop_right S p = S' /\ S' <> [].
Proof.
  induction S as [|b S IH]; intros NE; [congruence|]. cbn [pop_right]. destruct S as [|a S]; [exists [], [b]; repeat split; discriminate|].
  destruct (negb _); [|exists [], (b :: a :: S); repeat split; discriminate]. destruct IH as (T & S' & E1 & E2 & E3); [discriminate|]. exists (b :: T), S'. rewrite E1 at 1. repeat split; assumption.
Qed.
Lemma bottom_app T S : S <> [] -> bottom (T ++ S) = bottom S.
Proof.
  intros NE. unfold bottom, pt. rewrite app_length. assert (0 < length S)%nat by (destruct S; [congruence|cbn; lia]). rewrite app_nth2 by lia. f_equal. lia.
Qed.
Lemma before_all_app p0 T S p : before_all p0 (T ++ S) p -> before_all p0 S p.
Proof.
  intros H i Hi. specialize (H (length T + i)%nat). rewrite app_length in H. unfold pt in H. rewrite app_nth2 in H by lia. replace (length T + i - length T)%nat with i in H by lia. apply H. lia.
Qed.
Lemma bottom_In S : S <> [] -> In (bottom S) S.
Proof. intros NE. apply nth_In. destruct S; [congruence|cbn; lia]. Qed.

Lemma pop_ok P p : (forall a b c, In a P -> In b P -> In c P -> turn a b c = 0 \/ lit_1em9 <= Qcabs (turn a b c)) -> In p P ->
  forall S, incl S P -> (2 <= length S)%nat -> strong S -> before_all (bottom S) S p ->
  (2 <= length (pop_right S p))%nat /\ strong (p :: pop_right S p) /\ forall s, In s S -> in_hull (p :: pop_right S p) s.
Proof.
  intros G Ip. induction S as [|b S IH]; intros I L ST BA; [cbn in L; lia|]. destruct S as [|a R]; [cbn in L; lia|]. cbn [pop_right].
  assert (0 < turn (bottom (b :: a :: R)) b p) as Tb by (apply (BA 0%nat); cbn; lia).
  assert (bottom (b :: a :: R) = bottom (a :: R)) as EB by (apply (bottom_app [b]); discriminate).
  assert (In a P) as Ia by (apply I; right; left; reflexivity). assert (In b P) as Ib by (apply I; left; reflexivity).
  destruct R as [|c R].
  - change (bottom [b; a]) with a in *. destruct (orient_clear a b p (G a b p Ia Ib Ip)) as (O2 & _).
    rewrite (proj2 O2 Tb). cbn [Nat.eqb negb]. split; [cbn; lia|]. split; [apply push_strong; assumption|]. intros s Hs. apply point_in_hull. right. exact Hs.
  - set (q := bottom (b :: a :: c :: R)) in *. set (R' := c :: R) in *.
    assert (0 < turn q a p) as Ta by (apply (BA 1%nat); unfold R'; cbn; lia).
    assert (0 < turn q a b) as Tab by (apply (ST 0%nat 1%nat (length (b :: a :: R') - 1)%nat); unfold R'; cbn [length]; lia).
    destruct (orient_clear a b p (G a b p Ia Ib Ip)) as (O2 & _). assert (orientation a b p <> 2%nat -> turn a b p <= 0) as OL by (intros X; apply Qcnot_lt_le; intros Y; apply X, O2, Y).
    destruct (Nat.eqb_spec (orientation a b p) 2) as [O|O]; cbn [negb].
    + split; [cbn; lia|]. split; [apply push_strong; [assumption..|apply O2; exact O]|]. intros s Hs. apply point_in_hull. right. exact Hs.
    + destruct IH as (L' & ST' & H').
      * intros x Hx. apply I. right. exact Hx.
      * unfold R'. cbn. lia.
      * exact (strong_tail _ _ ST).
      * rewrite <- EB. apply (before_all_app _ [b]). exact BA.
      * split; [exact L'|]. split; [exact ST'|]. intros s [<-|Hs]; [|apply H'; exact Hs].
        apply (in_hull_incl [q; a; p]); [apply in_triangle; [assumption|apply OL; exact O|assumption..]|]. intros x [<-|[<-|[<-|[]]]].
        -- apply H'. fold q in EB. rewrite EB. apply bottom_In. discriminate.
        -- apply H'. left. reflexivity.
        -- apply point_in_hull. left. reflexivity.
Qed.
Lemma scan_ok P : (forall a b c, In a P -> In b P -> In c P -> turn a b c = 0 \/ lit_1em9 <= Qcabs (turn a b c)) ->
  forall rest S, incl S P -> incl rest P -> (3 <= length S)%nat -> strong S -> (forall r, In r rest -> before_all (bottom S) S r) -> ForallOrdPairs (fun a b => 0 < turn (bottom S) a b) rest ->
  (3 <= length (scan S rest))%nat /\ strong (scan S rest) /\ forall s, In s (S ++ rest) -> in_hull (scan S rest) s.
Proof.
  intros G. induction rest as [|p rest IH]; intros S IS IR L ST BA FO.
  - unfold scan. cbn [fold_left]. split; [exact L|]. split; [exact ST|]. intros s Hs. rewrite app_nil_r in Hs. apply point_in_hull. exact Hs.
  - unfold scan. cbn [fold_left]. fold (scan (p :: pop_right S p) rest). inversion FO as [|? ? F1 F2]; subst.
    destruct (pop_ok P p G (IR p (or_introl eq_refl)) S IS ltac:(lia) ST (BA p (or_introl eq_refl))) as (L' & ST' & H').
    destruct (pop_suffix p S) as (T & S' & E1 & E2 & NE); [destruct S; [cbn in L; lia|discriminate]|]. rewrite E2 in *.
    assert (bottom (p :: S') = bottom S) as EB by (rewrite E1, bottom_app by exact NE; apply (bottom_app [p]); exact NE).
    destruct (IH (p :: S')) as (A & B & C).
    + intros x [<-|Hx]; [apply IR; left; reflexivity|apply IS; rewrite E1; apply in_or_app; right; exact Hx].
    + intros x Hx. apply IR. right. exact Hx.
    + cbn [length]. lia.
    + exact ST'.
    + intros r Hr. rewrite EB. intros [|i] Hi; [exact (proj1 (Forall_forall _ _) F1 r Hr)|]. change (pt (p :: S') (Datatypes.S i)) with (pt S' i). cbn [length] in Hi.
      pose proof (BA r (or_intror Hr)) as X. rewrite E1 in X at 2. apply before_all_app in X. apply X. lia.
    + rewrite EB. exact F2.
    + split; [exact A|]. split; [exact B|]. intros s Hs. apply in_app_or in Hs. destruct Hs as [Hs|[<-|Hs]].
      * apply (in_hull_incl (p :: S')); [apply H'; exact Hs|]. intros x Hx. apply C. apply in_or_app. left. exact Hx.
      * apply C. left. reflexivity.
      * apply C. apply in_or_app. right. exact Hs.
Qed.
Lemma strong_rev S : (3 <= length S)%nat -> strong S -> convex_ccw (rev S).
Proof.
  intros L H. split; [rewrite rev_length; exact L|]. rewrite rev_length. intros i j k I J K. unfold pt. rewrite !rev_nth by lia. apply H; lia.
Qed.

Lemma turn_split p0 a b c : turn a b c = turn p0 a b + turn p0 b c + turn p0 c a.
Proof. unfold turn. ring. Qed.
Lemma hull_clear : forall sort P, sorts sort -> (3 <= length P)%nat -> clear_position lit_1em9 P -> not_collinear P ->
  exists R, convex_hull2d sort P = Ok R /\ convex_ccw R /\ incl R P /\ forall p, In p P -> in_hull R p.
Proof.
  intros sort P SO L (G & GY) NC. unfold convex_hull2d. destruct (Nat.ltb_spec (length P) 3) as [C|_]; [lia|].
  destruct (lowest_ok P) as (k & E & Hk & LO); [destruct P; [cbn in L; lia|discriminate]|exact GY|]. rewrite E. cbn [bind].
  destruct (swap_front_ok P k Hk) as (rest & E2 & PM). rewrite E2. cbn [bind]. set (p0 := pt P k) in *.
  assert (In p0 P) as I0 by (apply nth_In; exact Hk). assert (incl rest P) as IR by (intros x Hx; apply (Permutation_in _ PM); right; exact Hx).
  assert (forall a b, In a rest -> In b rest -> turn p0 a b = 0 \/ lit_1em9 <= Qcabs (turn p0 a b)) as G0 by (intros a b A B; apply G; auto).
  assert (forall a, In a P -> a = p0 \/ above p0 a) as UP0.
  { intros a A. destruct (LO a A) as [H|(H1 & H2)]; [right; left; exact H|]. destruct (Qcle_lt_or_eq _ _ H2) as [H|H]; [right; right; split; [exact H1|exact H]|]. left. apply v2_eq; congruence. }
  assert (forall a, In a rest -> a = p0 \/ above p0 a) as UP by (intros a A; apply UP0, IR, A).
  destruct (SO (point_before p0) rest (before_order p0 rest G0 UP)) as (PS & FS). set (l := sort (point_before p0) rest) in *.
  assert (forall a, In a l -> In a rest) as LR by (intros a; apply Permutation_in; exact PS).
  destruct (keep_far_ok p0 l (fun a b A B => G0 a b (LR a A) (LR b B)) (fun a A => UP a (LR a A)) FS) as (FT & COV). pose proof (keep_far_incl p0 l) as KI. set (m := keep_far p0 l) in *.
  assert (forall a, In a P -> a = p0 \/ In a l) as PL.
  { intros a A. apply (Permutation_in _ (Permutation_sym PM)) in A. destruct A as [<-|A]; [left; reflexivity|right; apply (Permutation_in _ (Permutation_sym PS)); exact A]. }
  assert (forall x, m = [x] \/ m = [] -> False) as TWO.
  { intros x Hm. destruct NC as (a & b & c & A & B & C & NZ). apply NZ.
    assert (forall y, In y P -> y = p0 \/ (turn p0 y x = 0 /\ above p0 y /\ above p0 x)) as ON.
    { intros y Y. destruct (PL y Y) as [->|Z]; [left; reflexivity|]. destruct (UP0 y Y) as [->|Ay]; [left; reflexivity|]. destruct (COV y Z) as (b' & B1 & _ & B3 & B4).
      destruct Hm as [Hm|Hm]; rewrite Hm in B1; [|destruct B1]. destruct B1 as [<-|[]]. right. split; [exact B3|]. split; [exact Ay|]. destruct B4 as [->|B4]; [exfalso; exact (above_not _ Ay)|exact B4]. }
    assert (forall y z, In y P -> In z P -> turn p0 y z = 0) as FL.
    { intros y z Y Z. destruct (ON y Y) as [->|(T1 & A1 & A2)]; [apply turn_diag_12|]. destruct (ON z Z) as [->|(T2 & A3 & _)]; [apply turn_diag_13|].
      apply (angle_order p0 y x z A1 A2 A3); [rewrite T1; apply Qcle_refl| |exact T1|]; rewrite turn_swap, T2; [apply Qcle_refl|reflexivity]. }
    rewrite (turn_split p0), !FL by assumption. reflexivity. }
  destruct m as [|p1 [|p2 more]] eqn:El; [exfalso; apply (TWO p0); right; reflexivity|exfalso; apply (TWO p1); left; reflexivity|]. rewrite <- El in *.
  assert (incl m P) as IL by (intros x Hx; apply IR, LR, KI, Hx).
  rewrite El in FT. inversion FT as [|? ? F1 F2]; subst. inversion F2 as [|? ? F3 F4]; subst.
  assert (In p1 m) as J1 by (rewrite El; left; reflexivity). assert (In p2 m) as J2 by (rewrite El; right; left; reflexivity). assert (incl more m) as JM by (intros x Hx; rewrite El; right; right; exact Hx).
  assert (0 < turn p0 p1 p2) as T12 by (inversion F1; assumption).
  destruct (scan_ok P G more [p2; p1; p0]) as (A & B & C).
  - intros x [<-|[<-|[<-|[]]]]; auto.
  - intros x Hx. auto.
  - cbn. lia.
  - intros i j h I J K. cbn [length] in K. assert (i = 0 /\ j = 1 /\ h = 2)%nat as (-> & -> & ->) by lia. exact T12.
  - intros r Hr i Hi. change (bottom [p2; p1; p0]) with p0. cbn [length] in Hi. destruct i as [|[|i]]; [|  |lia].
    + exact (proj1 (Forall_forall _ _) F3 r Hr).
    + exact (proj1 (Forall_forall _ _) F1 r (or_intror Hr)).
  - exact F4.
  - exists (rev (scan [p2; p1; p0] more)). split; [reflexivity|]. split; [apply strong_rev; assumption|]. split.
    + intros x Hx. apply in_rev in Hx. apply scan_incl in Hx. apply in_app_or in Hx. destruct Hx as [[<-|[<-|[<-|[]]]]|Hx]; auto.
    + assert (in_hull (scan [p2; p1; p0] more) p0) as H0 by (apply C; apply in_or_app; left; right; right; left; reflexivity).
      assert (forall b, In b m -> in_hull (scan [p2; p1; p0] more) b) as HM.
      { intros b Hb. apply C. apply in_or_app. rewrite El in Hb. destruct Hb as [<-|[<-|Hb]]; [left; right; left; reflexivity|left; left; reflexivity|right; exact Hb]. }
      intros p Hp. apply hull_rev. rewrite rev_involutive. destruct (PL p Hp) as [->|Q]; [exact H0|]. destruct (COV p Q) as (b & B1 & B2 & _). apply (in_hull_incl [p0; b]); [exact B2|]. intros x [<-|[<-|[]]]; auto.
Qed.
Lemma general_clear P : general_position lit_1em9 P -> clear_position lit_1em9 P.
Proof.
  intros (_ & G & GY). split; [|exact GY]. intros a b c A B C.
  assert (forall x y : vec2, {x = y} + {x <> y}) as D.
  { intros [x y] [x' y']. destruct (Qc_eq_dec x x') as [->|M]; [|right; intros F; apply M; exact (f_equal ux F)]. destruct (Qc_eq_dec y y') as [->|M]; [left; reflexivity|right; intros F; apply M; exact (f_equal uy F)]. }
  destruct (D a b) as [->|N1]; [left; apply turn_diag_12|]. destruct (D a c) as [->|N2]; [left; apply turn_diag_13|]. destruct (D b c) as [->|N3]; [left; apply turn_diag_23|]. right. apply G; assumption.
Qed.
Lemma general_not_collinear P : (3 <= length P)%nat -> general_position lit_1em9 P -> not_collinear P.
Proof.
  intros L GP. destruct GP as (ND & G & _). destruct P as [|a [|b [|c P]]]; try (cbn in L; lia).
  exists a, b, c. do 3 (split; [cbn; auto|]). inversion ND as [|? ? N1 ND1]; subst. inversion ND1 as [|? ? N2 _]; subst. cbn in N1, N2. intros X.
  assert (lit_1em9 <= Qcabs (turn a b c)) as Y by (apply G; [cbn; auto..|intros ->; tauto|intros ->; tauto|intros ->; tauto]). rewrite X in Y. vm_compute in Y. apply Y. reflexivity.
Qed.
