(** Concrete curves for the properties of curve-curve intersection. *)
From Coq Require Import List ZArith QArith Qcanon Lqa Lia Bool.
From Verif Require Import Base BaseFacts ModelVec ModelAabb ModelNurbs ModelCcx SpecAabb SpecNurbs SpecCurve SpecCcx
  ProofAabb ProofBspline ProofCurve ProofMinimize ProofCcx ProofCcxTop ProofCcxBezier WitnessNumeric WitnessNurbs.
Import ListNotations.
Open Scope Qc_scope.

(** A length that is exact for vectors parallel to an axis. *)
Definition len_l1 (v : vec3) : option Qc := Some (Qcabs (vx v) + Qcabs (vy v) + Qcabs (vz v)).
Definition exact_on_axes (len : vec3 -> option Qc) : Prop :=
  forall x, len (V3 x 0 0) = Some (Qcabs x) /\ len (V3 0 x 0) = Some (Qcabs x) /\ len (V3 0 0 x) = Some (Qcabs x).

Lemma abs_nonneg x : 0 <= Qcabs x.
Proof. destruct (Qcabs_cases x) as [[? ->]|[? ->]]; qc_lra. Qed.
Lemma abs_zero : Qcabs 0 = 0. Proof. apply Qc_is_canon; reflexivity. Qed.
Lemma abs_square x : Qcabs x * Qcabs x = x * x.
Proof. destruct (Qcabs_cases x) as [[? ->]|[? ->]]; ring. Qed.
Lemma len_l1_axes : exact_on_axes len_l1.
Proof. intros x. unfold len_l1. cbn [vx vy vz]. rewrite abs_zero. repeat split; f_equal; ring. Qed.

Lemma l1_parts a b c : 0 <= a -> 0 <= b -> 0 <= c -> a * a + b * b + c * c <= (a + b + c) * (a + b + c).
Proof.
  intros A B C. pose proof (Qcmul_nonneg _ _ A B). pose proof (Qcmul_nonneg _ _ B C). pose proof (Qcmul_nonneg _ _ A C).
  replace ((a + b + c) * (a + b + c)) with (a * a + b * b + c * c + qc 2 1 * (a * b) + qc 2 1 * (b * c) + qc 2 1 * (a * c)) by (apply Qcle_antisym; qc_nra).
  qc_lra.
Qed.

Lemma len_l1_shorter tol : 0 <= tol -> shorter len_l1 tol tol.
Proof.
  intros T v l E H. unfold len_l1 in E. assert (l = Qcabs (vx v) + Qcabs (vy v) + Qcabs (vz v)) as -> by congruence.
  unfold v3distSq, v3sq, v3sub. cbn [vx vy vz].
  assert (0 < tol) as T1. { pose proof (abs_nonneg (vx v)). pose proof (abs_nonneg (vy v)). pose proof (abs_nonneg (vz v)). qc_lra. }
  match goal with |- ?x < _ => replace x with (vx v * vx v + vy v * vy v + vz v * vz v) by ring end.
  rewrite <- (abs_square (vx v)), <- (abs_square (vy v)), <- (abs_square (vz v)).
  eapply Qcle_lt_trans; [apply l1_parts; apply abs_nonneg|].
  pose proof (abs_nonneg (vx v)). pose proof (abs_nonneg (vy v)). pose proof (abs_nonneg (vz v)).
  set (s := Qcabs (vx v) + Qcabs (vy v) + Qcabs (vz v)) in *. assert (0 <= s) by (unfold s; qc_lra). clearbody s. qc_nra.
Qed.

Lemma len_l1_zero : shorter len_l1 0 0.
Proof.
  intros v l E H. exfalso. unfold len_l1 in E. assert (l = Qcabs (vx v) + Qcabs (vy v) + Qcabs (vz v)) as -> by congruence.
  pose proof (abs_nonneg (vx v)). pose proof (abs_nonneg (vy v)). pose proof (abs_nonneg (vz v)). qc_lra.
Qed.

Lemma l1_bound a b c r : 0 <= r -> a * a + b * b + c * c <= r * r -> a + b + c <= qc 2 1 * r.
Proof. intros R H. destruct (Qcle_or_lt (a + b + c) (qc 2 1 * r)) as [K|K]; [exact K|]. exfalso. 
  assert ((qc 2 1 * r) * (qc 2 1 * r) < (a + b + c) * (a + b + c)) as M by (set (s := a + b + c) in *; clearbody s; qc_nra).
  assert ((a + b + c) * (a + b + c) <= qc 3 1 * (a * a + b * b + c * c)) as N.
  { assert (forall x : Qc, 0 <= x * x) as SQ by (intros x; qc_nra).
    pose proof (SQ (a - b)) as N1. pose proof (SQ (b - c)) as N2. pose proof (SQ (a - c)) as N3.
    replace (qc 3 1) with (1 + 1 + 1) by (apply Qc_is_canon; reflexivity).
    replace ((1 + 1 + 1) * (a * a + b * b + c * c)) with ((a + b + c) * (a + b + c) + ((a - b) * (a - b) + (b - c) * (b - c) + (a - c) * (a - c))) by ring.
    revert N1 N2 N3. generalize ((a - b) * (a - b)) ((b - c) * (b - c)) ((a - c) * (a - c)) ((a + b + c) * (a + b + c)). intros x y z w N1 N2 N3. qc_lra. }
  revert M N H. generalize ((a + b + c) * (a + b + c)) (a * a + b * b + c * c). intros u w M N H. qc_nra.
Qed.

Lemma len_l1_recognised tol r : 0 <= r -> qc 2 1 * r < tol -> recognised len_l1 tol r.
Proof.
  intros R H v K. eexists. split; [reflexivity|]. eapply Qcle_lt_trans; [|exact H]. apply l1_bound; [exact R|].
  rewrite !abs_square. eapply Qcle_trans; [|exact K]. unfold v3distSq, v3sq, v3sub. cbn [vx vy vz].
  match goal with |- ?x <= ?y => replace y with x by ring end. apply Qcle_refl.
Qed.

(** Segments of length 1/8 along two axes that cross in the middle. *)
Definition along_x : ncurve := get_ok nc_default (nc_make3 [V3 0 0 0; V3 (qc 1 8) 0 0] 1 false).
Definition along_y : ncurve := get_ok nc_default (nc_make3 [V3 (qc 1 16) (qc (-1) 16) 0; V3 (qc 1 16) (qc 1 16) 0] 1 false).

Lemma pair_eq_b (x y : Qc * Qc) : Qceqb (fst x) (fst y) && Qceqb (snd x) (snd y) = true -> x = y.
Proof. destruct x, y. cbn [fst snd]. rewrite andb_true_iff. intros [A B]. qcb. subst. reflexivity. Qed.
Fixpoint pairs_eqb (l m : list (Qc * Qc)) : bool :=
  match l, m with
  | [], [] => true
  | x :: l', y :: m' => Qceqb (fst x) (fst y) && Qceqb (snd x) (snd y) && pairs_eqb l' m'
  | _, _ => false
  end.
Lemma pairs_ok (r : option (res (list (Qc * Qc)))) m :
  match r with Some (Ok l) => pairs_eqb l m | _ => false end = true -> r = Some (Ok m).
Proof.
  destruct r as [[l| |]|]; try discriminate. revert m. induction l as [|x l IH]; intros [|y m]; cbn [pairs_eqb]; try discriminate; [reflexivity|].
  rewrite andb_true_iff. intros [A B]. apply pair_eq_b in A. apply IH in B. congruence.
Qed.

(** ** Straight segments *)
Definition is_segment (c : ncurve) (P Q : vec3) : Prop :=
  nc_knots c = [0; 0; 1; 1] /\ nc_degree c = 1%nat /\ nc_cps c = [v4of3 P; v4of3 Q] /\ nc_interval c = (0, 1) /\
  inside (nc_aabb c) P /\ inside (nc_aabb c) Q.

Lemma qdiv_one (x : Qc) : x / (1 - 0) = x. Proof. field. discriminate. Qed.

Lemma segment_bezier c P Q : is_segment c P Q -> bezier c 0 1.
Proof.
  intros (K & D & C & I & B1 & B2). unfold bezier. rewrite K, D, C, I.
  repeat split; try reflexivity; try lia.
  - intros q [<-|[<-|[]]]; reflexivity.
  - destruct H as [<-|[<-|[]]]; [apply B1|apply B2].
  - destruct H as [<-|[<-|[]]]; [apply B1|apply B2].
Qed.

Lemma segment_eval c P Q t : is_segment c P Q -> 0 <= t -> t <= 1 ->
  evaluate c t = Ok (V3 ((1 - t) * vx P + t * vx Q) ((1 - t) * vy P + t * vy Q) ((1 - t) * vz P + t * vz Q)).
Proof.
  intros SG T0 T1. destruct (bezier_bisectable _ _ _ (segment_bezier _ _ _ SG)) as (n & G & _ & W & _).
  destruct SG as (K & D & C & _). destruct G as (L & V & D8). rewrite C in L. cbn [length] in L. assert (n = 1%nat) as -> by lia.
  assert (in_domain 1 (nc_degree c) (nc_knots c) t) as DM by (rewrite K, D; split; assumption).
  rewrite (evaluate_positive c 1 t) by (try assumption; try (apply unit_positive; exact W); rewrite C; reflexivity).
  rewrite unit_rational by (try assumption; rewrite C; reflexivity). unfold poly_point, basis_at. rewrite K, D, C.
  cbn [qsum nth bspline knot Nat.add last]. unfold knot. cbn [nth]. cbn [last wx wy wz v4of3].
  change (Nat.eqb 0 1) with false. change (Nat.eqb 1 1) with true. change (Nat.eqb 2 1) with false. cbv iota.
  assert ((0 <=? t) = true) as -> by (apply Qcleb_iff; exact T0).
  assert ((t <? 0) = false) as ->. { destruct (Qcltb_spec t 0) as [X|X]; [|reflexivity]. exfalso. clear - X T0. qc_lra. }
  assert (forall x : Qc, x / (0 - 0) = 0) as Z0 by (intros x; apply Qcmult_0_r).
  assert (forall x : Qc, x / (1 - 1) = 0) as Z1 by (intros x; apply Qcmult_0_r).
  rewrite ?Z0, ?Z1, ?qdiv_one.
  destruct (Qceqb_spec t 1) as [->|N].
  - cbv iota. repeat f_equal; ring.
  - assert ((t <? 1) = true) as ->. { apply Qcltb_iff. apply Qcle_lt_or_eq in T1. destruct T1; [assumption|contradiction]. }
    assert ((1 <=? t) = false) as ->. { destruct (Qcleb_spec 1 t) as [X|X]; [|reflexivity]. exfalso. apply N. apply Qcle_antisym; assumption. }
    cbn [andb]. cbv iota. f_equal. f_equal; ring.
Qed.

Definition box_eqb (b : aabb) (lo hi : vec3) : bool :=
  Qceqb (vx (bmin b)) (vx lo) && Qceqb (vy (bmin b)) (vy lo) && Qceqb (vz (bmin b)) (vz lo) &&
  Qceqb (vx (bmax b)) (vx hi) && Qceqb (vy (bmax b)) (vy hi) && Qceqb (vz (bmax b)) (vz hi).
Definition le3 (p q : vec3) : bool := (vx p <=? vx q) && (vy p <=? vy q) && (vz p <=? vz q).
Definition segment_b (c : ncurve) (P Q : vec3) : bool :=
  list_eqb (nc_knots c) [0; 0; 1; 1] && Qceqb (fst (nc_interval c)) 0 && Qceqb (snd (nc_interval c)) 1 && box_eqb (nc_aabb c) P Q && le3 P Q.
Lemma segment_ok c P Q : segment_b c P Q = true -> nc_degree c = 1%nat -> nc_cps c = [v4of3 P; v4of3 Q] -> is_segment c P Q /\ tight_box c.
Proof.
  unfold segment_b, box_eqb, le3. rewrite !andb_true_iff.
  intros ((((A & B1) & B2) & (((((C1 & C2) & C3) & C4) & C5) & C6)) & (L1 & L2) & L3) D C.
  apply list_eqb_ok in A. qcb. 
  assert (nc_aabb c = Box P Q) as EB.
  { destruct (nc_aabb c) as [[x y z] [x' y' z']]. destruct P, Q. cbn in *. congruence. }
  split; [|].
  - split; [exact A|]. split; [exact D|]. split; [exact C|]. split; [rewrite (surjective_pairing (nc_interval c)); congruence|].
    rewrite EB. split; intros ax; (split; [|]); destruct ax; cbn [bmin bmax coord]; try apply Qcle_refl; assumption.
  - intros b H. rewrite EB. assert (inside b P /\ inside b Q) as [X Y].
    { rewrite C in H. split; [destruct P as [x y z]; apply (H (v4of3 (V3 x y z))); left; reflexivity|destruct Q as [x y z]; apply (H (v4of3 (V3 x y z))); right; left; reflexivity]. }
    intros p I ax. destruct (I ax) as [I1 I2]. destruct (X ax) as [X1 X2]. destruct (Y ax) as [Y1 Y2]. cbn [bmin bmax] in *.
    split; [apply Qcle_trans with (coord P ax)|apply Qcle_trans with (coord Q ax)]; assumption.
Qed.

Lemma segment_long c P Q r : is_segment c P Q -> 0 <= r -> r * r <= tol12 * tol12 * v3distSq P Q -> long_parts c r.
Proof.
  intros SG R0 HR a b p q HV GT Ep Eq. destruct SG as (K & D & C & I & B). rewrite I in HV. cbn [fst snd] in HV.
  assert (0 <= a /\ a <= b /\ b <= 1) as (A0 & AB & B1).
  { clear - HV. induction HV as [|x y HV (A & B & C)|x y HV (A & B & C)]; [repeat split; discriminate| |]; repeat split; qc_lra. }
  assert (is_segment c P Q) as SG by (repeat (split; [assumption|]); exact B).
  rewrite (segment_eval c P Q a SG A0) in Ep by (eapply Qcle_trans; eassumption). rewrite (segment_eval c P Q b SG) in Eq by (try exact B1; eapply Qcle_trans; eassumption).
  assert (p = V3 ((1 - a) * vx P + a * vx Q) ((1 - a) * vy P + a * vy Q) ((1 - a) * vz P + a * vz Q)) as -> by congruence.
  assert (q = V3 ((1 - b) * vx P + b * vx Q) ((1 - b) * vy P + b * vy Q) ((1 - b) * vz P + b * vz Q)) as -> by congruence.
  eapply Qcle_trans; [exact HR|].
  match goal with |- _ <= ?y => replace y with ((b - a) * (b - a) * v3distSq P Q) by (unfold v3distSq, v3sq, v3sub; cbn [vx vy vz]; ring) end.
  apply Qcmult_le_compat_r.
  - apply (sq_between 0); assert (0 <= tol12) as T0 by discriminate; revert GT T0; generalize tol12; intros e GT T0; clear - GT T0; qc_lra.
  - unfold v3distSq, v3sq, v3sub. cbn [vx vy vz]. assert (forall x : Qc, 0 <= x * x) as SQ by (intros x; qc_nra).
    pose proof (SQ (vx P - vx Q)) as N1. pose proof (SQ (vy P - vy Q)) as N2. pose proof (SQ (vz P - vz Q)) as N3.
    revert N1 N2 N3. generalize ((vx P - vx Q) * (vx P - vx Q)) ((vy P - vy Q) * (vy P - vy Q)) ((vz P - vz Q) * (vz P - vz Q)). intros x y z N1 N2 N3. clear - N1 N2 N3. qc_lra.
Qed.

Lemma along_x_ok : is_segment along_x (V3 0 0 0) (V3 (qc 1 8) 0 0) /\ tight_box along_x.
Proof. apply segment_ok; [vm_compute; reflexivity|reflexivity|reflexivity]. Qed.
Lemma along_y_ok : is_segment along_y (V3 (qc 1 16) (qc (-1) 16) 0) (V3 (qc 1 16) (qc 1 16) 0) /\ tight_box along_y.
Proof. apply segment_ok; [vm_compute; reflexivity|reflexivity|reflexivity]. Qed.
Lemma along_bisectable : bisectable along_x /\ bisectable along_y.
Proof. split; eapply bezier_bisectable; eapply segment_bezier; [apply along_x_ok|apply along_y_ok]. Qed.

Lemma along_crossing : forall u1 u2, crossing along_x along_y u1 u2 <-> u1 = qc 1 2 /\ u2 = qc 1 2.
Proof.
  assert (forall u1 u2, within_interval along_x u1 /\ within_interval along_y u2 <-> (0 <= u1 /\ u1 <= 1) /\ 0 <= u2 /\ u2 <= 1) as W.
  { intros. unfold within_interval. destruct (proj1 along_x_ok) as (_ & _ & _ & -> & _). destruct (proj1 along_y_ok) as (_ & _ & _ & -> & _). cbn [fst snd]. tauto. }
  intros u1 u2. split.
  - intros (W1 & W2 & p & E1 & E2). destruct (proj1 (W u1 u2) (conj W1 W2)) as ((A & B) & C & D).
    rewrite (segment_eval _ _ _ u1 (proj1 along_x_ok)) in E1 by assumption. rewrite (segment_eval _ _ _ u2 (proj1 along_y_ok)) in E2 by assumption.
    rewrite <- E2 in E1. cbn [vx vy vz] in E1. assert (forall a b c d e f : Qc, Ok (V3 a b c) = Ok (V3 d e f) -> a = d /\ b = e) as J by (intros; split; congruence).
    apply J in E1. destruct E1 as [X Y]. clear - X Y.
    assert (forall a b : Qc, a = b -> a <= b /\ b <= a) as EQ by (intros a b ->; split; apply Qcle_refl).
    apply EQ in X. apply EQ in Y. destruct X as [X1 X2]. destruct Y as [Y1 Y2]. split; apply Qcle_antisym; qc_lra.
  - intros [-> ->]. destruct (proj2 (W (qc 1 2) (qc 1 2))) as [W1 W2]; [repeat split; discriminate|]. split; [exact W1|]. split; [exact W2|].
    exists (V3 (qc 1 16) 0 0). split; apply v3_ok_eq; vm_compute; reflexivity.
Qed.

Definition along_pairs : list (Qc * Qc) :=
  [(qc 15 32, qc 15 32); (qc 17 32, qc 17 32); (qc 15 32, qc 17 32); (qc 17 32, qc 15 32)].
Lemma along_found : ccx len_l1 5 along_x along_y (qc 1 64) [] = Some (Ok along_pairs).
Proof. apply pairs_ok. vm_compute. reflexivity. Qed.

Lemma duplicates_witness : exists len c1 c2 tol fuel out u1 u2,
  exact_on_axes len /\ shorter len tol tol /\ bisectable c1 /\ bisectable c2 /\ 0 < tol /\
  (forall v1 v2, crossing c1 c2 v1 v2 <-> v1 = u1 /\ v2 = u2) /\
  ccx len fuel c1 c2 tol [] = Some (Ok out) /\ length out = 4%nat /\
  (forall s t, In (s, t) out -> tol < Qcabs (s - u1) /\ tol < Qcabs (t - u2)).
Proof.
  exists len_l1, along_x, along_y, (qc 1 64), 5%nat, along_pairs, (qc 1 2), (qc 1 2).
  split; [exact len_l1_axes|]. split; [apply len_l1_shorter; discriminate|]. split; [apply along_bisectable|]. split; [apply along_bisectable|].
  split; [reflexivity|]. split; [exact along_crossing|]. split; [exact along_found|]. split; [reflexivity|].
  intros s t [E|[E|[E|[E|[]]]]]; pose proof (f_equal fst E) as A; pose proof (f_equal snd E) as B; cbn [fst snd] in A, B; subst s t; split; vm_compute; reflexivity.
Qed.

(** ** A long segment and a tolerance of 1e-6 *)
Definition million : Qc := qc 1048576 1.
Definition tol6 : Qc := Q2Qc (4722366482869645 # 4722366482869645213696).
Definition long_x : ncurve := get_ok nc_default (nc_make3 [V3 0 0 0; V3 million 0 0] 1 false).
Lemma long_x_ok : is_segment long_x (V3 0 0 0) (V3 million 0 0) /\ tight_box long_x.
Proof. apply segment_ok; [vm_compute; reflexivity|reflexivity|reflexivity]. Qed.

Lemma long_case : bisectable long_x /\ bisectable along_y /\ crossing long_x along_y (qc 1 16777216) (qc 1 2) /\ shorter len_l1 tol6 tol6 /\
  tol12 < snd (nc_interval long_x) - fst (nc_interval long_x) /\ long_parts long_x tol6.
Proof.
  split; [eapply bezier_bisectable, segment_bezier, long_x_ok|]. split; [apply along_bisectable|].
  split; [split; [split; vm_compute; discriminate|split; [split; vm_compute; discriminate|exists (V3 (qc 1 16) 0 0); split; apply v3_ok_eq; vm_compute; reflexivity]]|].
  split; [apply len_l1_shorter; discriminate|]. split; [vm_compute; reflexivity|].
  apply (segment_long _ _ _ _ (proj1 long_x_ok)); vm_compute; discriminate.
Qed.

Lemma long_witness : exists len c1 c2 tol u1 u2,
  exact_on_axes len /\ shorter len tol tol /\ bisectable c1 /\ bisectable c2 /\ 0 < tol /\ crossing c1 c2 u1 u2 /\
  eventually (fun n => ccx len n c1 c2 tol []) (Throw EInvalidArgument).
Proof.
  destruct long_case as (B1 & B2 & X & S & L & LP). exists len_l1, long_x, along_y, tol6, (qc 1 16777216), (qc 1 2).
  split; [exact len_l1_axes|]. split; [exact S|]. split; [exact B1|]. split; [exact B2|]. split; [reflexivity|]. split; [exact X|].
  exact (ccx_throws len_l1 _ _ tol6 tol6 _ _ [] B1 B2 X S L LP).
Qed.

(** ** The Bezier criterion *)
Lemma along_steps : control_steps along_x (qc 1 8) /\ control_steps along_y (qc 1 8).
Proof.
  split; intros i ax H.
  - destruct (proj1 along_x_ok) as (_ & _ & C & _). rewrite C in *. cbn [length] in H. assert (i = 0%nat) as -> by lia. cbn [nth].
    destruct ax; split; vm_compute; discriminate.
  - destruct (proj1 along_y_ok) as (_ & _ & C & _). rewrite C in *. cbn [length] in H. assert (i = 0%nat) as -> by lia. cbn [nth].
    destruct ax; split; vm_compute; discriminate.
Qed.
Lemma along_enough : enough along_x (qc 1 8) 1 (qc 1 130) /\ enough along_y (qc 1 8) 1 (qc 1 130) /\ recognised len_l1 (qc 1 64) (qc 1 130).
Proof.
  split; [vm_compute; discriminate|]. split; [vm_compute; discriminate|]. apply len_l1_recognised; [discriminate|reflexivity].
Qed.
Lemma along_case : bezier along_x 0 (0 + 1) /\ bezier along_y 0 (0 + 1) /\ tight_box along_x /\ tight_box along_y /\
  control_steps along_x (qc 1 8) /\ control_steps along_y (qc 1 8) /\
  enough along_x (qc 1 8) 1 (qc 1 130) /\ enough along_y (qc 1 8) 1 (qc 1 130) /\ recognised len_l1 (qc 1 64) (qc 1 130).
Proof.
  rewrite Qcplus_0_l. split; [eapply segment_bezier, along_x_ok|]. split; [eapply segment_bezier, along_y_ok|].
  split; [apply along_x_ok|]. split; [apply along_y_ok|]. split; [apply along_steps|]. split; [apply along_steps|]. exact along_enough.
Qed.

(** ** Weights *)
Definition across : ncurve := get_ok nc_default (nc_make3 [V3 (qc 3 2) (qc (-1) 1) 0; V3 (qc 3 2) 1 0] 1 false).
Lemma weights_witness : exists c1 c2 u1 u2 n1 n2,
  good_curve c1 n1 /\ positive_weights (nc_cps c1) /\ interval_current c1 /\ good_curve c2 n2 /\ positive_weights (nc_cps c2) /\ interval_current c2 /\
  crossing c1 c2 u1 u2 /\ forall len tol fuel, ccx len (S fuel) c1 c2 tol [] = Some (Ok []).
Proof.
  exists rat_curve, across, (qc 3 5), (qc 1 2), 1%nat, 1%nat. split; [apply good_b_ok; vm_compute; reflexivity|].
  split; [exact rat_positive|]. split; [apply pair_eq_b; vm_compute; reflexivity|]. split; [apply good_b_ok; vm_compute; reflexivity|].
  split; [intros q [<-|[<-|[]]]; reflexivity|]. split; [apply pair_eq_b; vm_compute; reflexivity|].
  split; [split; [split; vm_compute; discriminate|split; [split; vm_compute; discriminate|exists (V3 (qc 3 2) 0 0); split; apply v3_ok_eq; vm_compute; reflexivity]]|].
  intros. rewrite ccx_eq. assert (aabb_intersects (nc_aabb rat_curve) (nc_aabb across) = false) as -> by (vm_compute; reflexivity). reflexivity.
Qed.

Lemma segment_covers c P Q : is_segment c P Q -> interval_covers c.
Proof.
  intros (K & _ & _ & I & _). unfold interval_covers. rewrite K, I. cbn [fst snd]. split; [discriminate|].
  intros x [<-|[<-|[<-|[<-|[]]]]]; split; discriminate.
Qed.
Lemma along_x_covers : interval_covers along_x. Proof. eapply segment_covers, along_x_ok. Qed.
Lemma along_y_covers : interval_covers along_y. Proof. eapply segment_covers, along_y_ok. Qed.
Lemma along_shorter : shorter len_l1 (qc 1 64) (qc 1 64). Proof. apply len_l1_shorter. discriminate. Qed.
