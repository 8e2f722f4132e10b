(** Concrete curves for the statements about joining, closing and length. *)
From Coq Require Import List ZArith QArith Qcanon Bool Lia Lqa Field.
From Verif Require Import Base BaseFacts LoopFacts ModelVec ModelAabb ModelNurbs ModelNumeric ModelDerivative ModelJoin
  SpecNurbs SpecCurve SpecDerivative SpecJoin ProofBspline ProofNurbs ProofSmooth ProofCurve ProofDerivative ProofDerivativeTop ProofNurbsTop
  SpecNumeric ProofIntegrate ProofPeriodic ProofJoin ProofJoinTop ProofLength WitnessNurbs WitnessGjk.
Import ListNotations.
Open Scope Qc_scope.

(** every curve the library builds from points is open *)
Lemma make3_open pts p : (p < length pts)%nat -> (p <= 8)%nat ->
  exists c n, nc_make3 pts p false = Ok c /\ length pts = S n /\ open_curve c n /\ nc_cps c = map v4of3 pts /\ nc_degree c = p /\
    unit_weights (nc_cps c) /\ simple_knots n p (nc_knots c).
Proof.
  intros H H8. destruct (make3_top pts p H H8) as (c & n & E & L & G & Ec & Ed & W & _ & C & _ & I & _ & _ & HU & K & _).
  exists c, n. split; [exact E|]. split; [exact L|]. split.
  - split; [assumption|]. rewrite Ed. split; [assumption|]. split; [assumption|]. split; [apply unit_positive; assumption|assumption].
  - split; [assumption|]. split; [assumption|]. split; [assumption|]. intros i H1 H2. rewrite !K by lia. apply Qc_of_nat_lt. lia.
Qed.

Definition some_of (r : res (option ncurve)) : ncurve := match r with Ok (Some c) => c | _ => nc_default end.
Lemma some_of_ok r : match r with Ok (Some _) => true | _ => false end = true -> r = Ok (Some (some_of r)).
Proof. destruct r as [[c|]| |]; try discriminate. reflexivity. Qed.
Lemma get_it {A} (d : A) r x : r = Ok x -> get_ok d r = x. Proof. intros ->. reflexivity. Qed.

(** the sum of the absolute values: the length of vectors along an axis *)
Definition taxi (v : vec3) : Qc := Qcabs (vx v) + Qcabs (vy v) + Qcabs (vz v).
Definition taxi_len (v : vec3) : option Qc := Some (taxi v).

Definition pt (x y : Z) : vec3 := V3 (Qc_of_Z x) (Qc_of_Z y) 0.
Definition curve_of (l : list vec3) (p : nat) : ncurve := get_ok nc_default (nc_make3 l p false).

Lemma curve_of_open l p n : (p < length l)%nat -> (p <= 8)%nat -> length l = S n ->
  open_curve (curve_of l p) n /\ nc_cps (curve_of l p) = map v4of3 l /\ nc_degree (curve_of l p) = p /\ unit_weights (nc_cps (curve_of l p)) /\
  simple_knots n p (nc_knots (curve_of l p)).
Proof.
  intros H H8 L. destruct (make3_open l p H H8) as (c & m & E & L' & R). assert (m = n) as -> by lia. unfold curve_of. rewrite E. exact R.
Qed.

(** ** polylines *)
Definition corner1 := [pt 0 0; pt 1 0; pt 1 1].
Definition corner2 := [pt 0 0; pt 0 1; pt 1 1].
Definition arm := [pt 3 0; pt 0 0].

Lemma joins_arm : nc_join taxi_len (curve_of corner1 1) (curve_of arm 1) = Ok (Some (some_of (nc_join taxi_len (curve_of corner1 1) (curve_of arm 1)))).
Proof. apply some_of_ok. vm_compute. reflexivity. Qed.
Lemma joins_square : nc_join taxi_len (curve_of corner1 1) (curve_of corner2 1) = Ok (Some (some_of (nc_join taxi_len (curve_of corner1 1) (curve_of corner2 1)))).
Proof. apply some_of_ok. vm_compute. reflexivity. Qed.
Definition square := some_of (nc_join taxi_len (curve_of corner1 1) (curve_of corner2 1)).
Lemma square_periodic : nc_periodic square = true /\ length (nc_cps square) = 6%nat.
Proof. split; vm_compute; reflexivity. Qed.
Lemma arm_open : nc_periodic (some_of (nc_join taxi_len (curve_of corner1 1) (curve_of arm 1))) = false.
Proof. vm_compute. reflexivity. Qed.
Lemma not_joined : nc_join taxi_len (curve_of corner1 1) (curve_of [pt 5 5; pt 7 7] 1) = Ok None.
Proof. vm_compute. reflexivity. Qed.

(** ** a line joined to a parabola *)
Definition base := [pt 0 0; pt 2 0].
Definition arch := [pt 2 0; pt 3 1; pt 4 0].
Definition base_arch := some_of (nc_join taxi_len (curve_of base 1) (curve_of arch 2)).
Lemma joins_arch : nc_join taxi_len (curve_of base 1) (curve_of arch 2) = Ok (Some base_arch).
Proof. unfold base_arch. apply some_of_ok. vm_compute. reflexivity. Qed.

Lemma arch_top : traced (curve_of arch 2) 2 (V3 (qc 3 1) (qc 1 2) 0).
Proof.
  exists (qc 1 2). split.
  - split; apply Qcleb_iff; vm_compute; reflexivity.
  - apply okv_ok. vm_compute. reflexivity.
Qed.

Lemma base_arch_shape : exists n, good_curve base_arch n /\ nc_degree base_arch = 1%nat /\ positive_weights (nc_cps base_arch) /\
  map xyz (nc_cps base_arch) = [pt 0 0; pt 2 0; pt 2 0; pt 3 1; pt 4 0].
Proof.
  destruct (curve_of_open base 1 1 ltac:(cbn; lia) ltac:(lia) eq_refl) as (O1 & C1 & D1 & W1 & _).
  destruct (curve_of_open arch 2 2 ltac:(cbn; lia) ltac:(lia) eq_refl) as (O2 & C2 & D2 & W2 & _).
  destruct (join_full taxi_len _ _ 1 2 O1 O2) as (o & E & _ & H). rewrite joins_arch in E. injection E as <-.
  destruct (H _ eq_refl) as (l1 & l2 & _ & (Dr & _) & _ & _). clear H. rewrite D1 in Dr.
  assert (nc_cps base_arch = map v4of3 base ++ map v4of3 arch) as EC.
  { unfold base_arch, nc_join, curve_of. vm_compute. reflexivity. }
  assert (gen_knots 5 1 = Ok (nc_knots base_arch)) as EK by (vm_compute; reflexivity).
  destruct (gen_simple 4 1 _ ltac:(lia) EK) as [_ V].
  exists 4%nat. split; [split; [rewrite EC; reflexivity|rewrite Dr; split; [exact V|lia]]|]. split; [exact Dr|]. rewrite EC. split; [|reflexivity].
  apply unit_positive. intros q Hq. apply in_app_iff in Hq. destruct Hq as [Hq|Hq]; apply in_map_iff in Hq; destruct Hq as (x & <- & _); reflexivity.
Qed.

Lemma off_segment a b p : (forall s, 0 <= s -> s <= 1 -> vx p = (1 - s) * vx a + s * vx b -> vy p = (1 - s) * vy a + s * vy b -> False) -> ~ on_segment a b p.
Proof. intros H (s & H0 & H1 & E). apply (H s H0 H1); rewrite E; reflexivity. Qed.

Lemma arch_lost n : good_curve base_arch n -> ~ traced base_arch n (V3 (qc 3 1) (qc 1 2) 0).
Proof.
  intros G T. destruct base_arch_shape as (m & _ & D & W & E).
  pose proof (polygon_in _ n _ G D W T) as P. rewrite E in P. clear - P. cbn [on_polygon] in P.
  destruct P as [P|[P|[P|[P|P]]]]; [| | | |exact P]; revert P; apply off_segment; intros s H0 H1 Ex Ey; unfold pt in Ex, Ey; cbn [vx vy] in Ex, Ey.
  all: change (Qc_of_Z 0) with (qc 0 1) in *; change (Qc_of_Z 1) with (qc 1 1) in *; change (Qc_of_Z 2) with (qc 2 1) in *; change (Qc_of_Z 3) with (qc 3 1) in *; change (Qc_of_Z 4) with (qc 4 1) in *.
  all: apply Qc_eq_this in Ex; apply Qc_eq_this in Ey; revert H0 H1 Ex Ey; qc_push; intros; lra.
Qed.

(** ** closing *)
Definition tile := [v4of3 (pt 0 0); v4of3 (pt 1 0); v4of3 (pt 1 1); v4of3 (pt 0 1)].
Definition tile_curve := get_ok nc_default (nc_make tile 1 true).
Lemma tile_made : nc_make tile 1 true = Ok tile_curve.
Proof. unfold tile_curve. destruct (nc_make tile 1 true) eqn:E; [reflexivity|vm_compute in E; discriminate|vm_compute in E; discriminate]. Qed.
Lemma tile_ends : nc_interval tile_curve = (Qc_of_Z (-1), Qc_of_Z 5) /\ evaluate tile_curve (Qc_of_Z (-1)) = Ok (pt (-1) 0) /\ evaluate tile_curve (Qc_of_Z 5) = Ok (pt 0 (-1)).
Proof.
  split; [|split; apply okv_ok; vm_compute; reflexivity].
  assert (forall a b : Qc * Qc, (fst a =? fst b) && (snd a =? snd b) = true -> a = b) as K.
  { intros [a1 a2] [b1 b2] H. apply andb_true_iff in H. destruct H as [A B]. apply Qceqb_iff in A, B. cbn in A, B. congruence. }
  apply K. vm_compute. reflexivity.
Qed.

(** ** length *)
Definition zigs := [pt 0 0; pt 0 0; pt 1000 0; pt 1000 0; pt 2000 0; pt 2000 0; pt 3000 0; pt 3000 0; pt 3000 0].
Definition stair := curve_of zigs 1.

Lemma zero_length f : exact_length f -> f (V3 0 0 0) = 0.
Proof. intros H. apply H; [apply Qcle_refl|]. apply Qc_is_canon. reflexivity. Qed.

Lemma stair_still f : exact_length f -> forall k, (k <= 4)%nat -> nc_speed f stair (Qc_of_nat (2 * k)) = Ok 0.
Proof.
  intros H k Hk. unfold nc_speed. assert (nc_derivative stair (Qc_of_nat (2 * k)) = Ok (V3 0 0 0)) as ->; [|cbn [bind]; rewrite zero_length by assumption; reflexivity].
  destruct k as [|[|[|[|[|]]]]]; [..|lia]; apply okv_ok; vm_compute; reflexivity.
Qed.

Lemma stair_interval : nc_interval stair = (0, qc 8 1).
Proof.
  assert (forall a b : Qc * Qc, (fst a =? fst b) && (snd a =? snd b) = true -> a = b) as K.
  { intros [a1 a2] [b1 b2] H. apply andb_true_iff in H. destruct H as [A B]. apply Qceqb_iff in A, B. cbn in A, B. congruence. }
  apply K. vm_compute. reflexivity.
Qed.

Lemma stair_length f : exact_length f -> nc_length_all f stair = Ok 0.
Proof.
  intros H. pose proof (stair_still f H) as K.
  assert (nc_speed f stair 0 = Ok 0) as K0 by exact (K 0%nat ltac:(lia)).
  assert (nc_speed f stair (qc 8 1) = Ok 0) as K8. { replace (qc 8 1) with (Qc_of_nat (2 * 4)) by (apply Qc_is_canon; reflexivity). apply K. lia. }
  assert (nc_speed f stair (qc 1 2 * (0 + qc 8 1)) = Ok 0) as K4. { replace (qc 1 2 * (0 + qc 8 1)) with (Qc_of_nat (2 * 2)) by (apply Qc_is_canon; reflexivity). apply K. lia. }
  assert (nc_speed f stair (qc 1 2 * (0 + qc 1 2 * (0 + qc 8 1))) = Ok 0) as K2. { replace (qc 1 2 * (0 + qc 1 2 * (0 + qc 8 1))) with (Qc_of_nat (2 * 1)) by (apply Qc_is_canon; reflexivity). apply K. lia. }
  assert (nc_speed f stair (qc 1 2 * (qc 1 2 * (0 + qc 8 1) + qc 8 1)) = Ok 0) as K6. { replace (qc 1 2 * (qc 1 2 * (0 + qc 8 1) + qc 8 1)) with (Qc_of_nat (2 * 3)) by (apply Qc_is_canon; reflexivity). apply K. lia. }
  unfold nc_length_all, nc_length. rewrite stair_interval. cbn [fst snd]. apply integrate_zero; [reflexivity|assumption..].
Qed.

Lemma stair_ends : evaluate stair 0 = Ok (pt 0 0) /\ evaluate stair (qc 8 1) = Ok (pt 3000 0).
Proof. split; apply okv_ok; vm_compute; reflexivity. Qed.

Lemma stair_refutes : exists c n a b, good_curve c n /\ unit_weights (nc_cps c) /\ nc_interval c = (0, qc 8 1) /\
  evaluate c 0 = Ok a /\ evaluate c (qc 8 1) = Ok b /\ v3distSq a b = qc 3000 1 * qc 3000 1 /\
  forall f, exact_length f -> nc_length_all f c = Ok 0.
Proof.
  destruct (curve_of_open zigs 1 8 ltac:(cbn; lia) ltac:(lia) eq_refl) as ((G & _) & _ & _ & W & _).
  exists stair, 8%nat, (pt 0 0), (pt 3000 0). split; [exact G|]. split; [exact W|]. split; [exact stair_interval|].
  split; [exact (proj1 stair_ends)|]. split; [exact (proj2 stair_ends)|]. split; [apply Qc_is_canon; vm_compute; reflexivity|]. exact stair_length.
Qed.

(** an exact length function exists: integer square roots of numerator and
    denominator *)
Definition root_q (q : Qc) : Qc := Q2Qc (Z.sqrt (Qnum (this q)) # Pos.sqrt (Qden (this q))).
Lemma root_square l : 0 <= l -> root_q (l * l) = l.
Proof.
  intros H. destruct l as [[a b] C]. unfold root_q.
  assert (this ({| this := a # b; canon := C |} * {| this := a # b; canon := C |}) = (a * a # b * b)) as E.
  { change (Qred ((a # b) * (a # b)) = (a * a # b * b)). unfold Qmult. cbn [Qnum Qden].
    assert (Z.gcd (a * a) (Zpos (b * b)) = 1%Z) as G1.
    { assert (Znumtheory.rel_prime a (Zpos b)) as R by (apply Znumtheory.Zgcd_1_rel_prime; apply (Qred_identity2 (a # b)); exact C).
      apply Znumtheory.Zgcd_1_rel_prime. rewrite Pos2Z.inj_mul. apply Znumtheory.rel_prime_mult; apply Znumtheory.rel_prime_sym; apply Znumtheory.rel_prime_mult; apply Znumtheory.rel_prime_sym; exact R. }
    apply Qred_identity. exact G1. }
  rewrite E. cbn [Qnum Qden].
  assert (0 <= a)%Z as Ha. { unfold Qcle in H. cbn in H. unfold Qle in H. cbn in H. lia. }
  rewrite Z.sqrt_square by assumption.
  assert (Pos.sqrt (b * b) = b) as ->.
  { apply Pos2Z.inj. change (Zpos (Pos.sqrt (b * b))) with (Z.sqrt (Zpos (b * b))). rewrite Pos2Z.inj_mul. apply Z.sqrt_square. lia. }
  apply Qc_is_canon. change (Qred (a # b) == (a # b))%Q. apply Qred_correct.
Qed.
Definition true_length (v : vec3) : Qc := root_q (v3sq v).
Lemma true_length_exact : exact_length true_length.
Proof. intros v l H E. unfold true_length. rewrite <- E. apply root_square. assumption. Qed.

(** a straight line at speed 5 *)
Definition ruler := curve_of [pt 0 0; pt 3 4] 1.
Lemma ruler_open : open_curve ruler 1 /\ nc_degree ruler = 1%nat /\ unit_weights (nc_cps ruler).
Proof.
  destruct (curve_of_open [pt 0 0; pt 3 4] 1 1 ltac:(cbn; lia) ltac:(lia) eq_refl) as (O & _ & D & W & _). auto.
Qed.
Lemma ruler_in t : 0 <= t -> t <= 1 -> in_curve ruler 1 t.
Proof. intros H0 H1. split; [|exact H1]. exact H0. Qed.
Lemma ruler_speed f t v : exact_length f -> in_curve ruler 1 t -> velocity_at ruler 1 t v -> f v = qc 5 1.
Proof.
  intros H D V. destruct ruler_open as ((G & _) & Dg & W). pose proof (velocity_derivative ruler 1 t v G ltac:(lia) W D V) as E.
  destruct (segment_derivative (pt 0 0) (pt 3 4)) as (c & Ec & _ & _ & Dv). unfold ruler, curve_of in *. rewrite Ec in *. cbn [get_ok] in *.
  rewrite (Dv t D) in E. injection E as <-. apply H; [discriminate|]. apply Qc_is_canon. vm_compute. reflexivity.
Qed.
Lemma tile_refutes : exists cps p c a b, (1 <= p)%nat /\ (p < length cps)%nat /\ unit_weights cps /\ nc_make cps p true = Ok c /\
    evaluate c (fst (nc_interval c)) = Ok a /\ evaluate c (snd (nc_interval c)) = Ok b /\ a <> b.
Proof.
  exists tile, 1%nat, tile_curve, (pt (-1) 0), (pt 0 (-1)). destruct tile_ends as (I & A & B). rewrite I. cbn [fst snd].
  split; [lia|]. split; [cbn; lia|]. split; [intros q Hq; cbn in Hq; decompose [or] Hq; subst; try reflexivity; contradiction|].
  split; [exact tile_made|]. split; [exact A|]. split; [exact B|]. intros F. injection F as F1 F2. discriminate F1.
Qed.
Lemma arch_refutes : exists len c1 c2 n1 n2 r n p, open_curve c1 n1 /\ open_curve c2 n2 /\ nc_join len c1 c2 = Ok (Some r) /\
    good_curve r n /\ traced c2 n2 p /\ ~ traced r n p.
Proof.
  destruct base_arch_shape as (n & G & _). exists taxi_len, (curve_of base 1), (curve_of arch 2), 1%nat, 2%nat, base_arch, n, (V3 (qc 3 1) (qc 1 2) 0).
  split; [exact (proj1 (curve_of_open base 1 1 ltac:(cbn; lia) ltac:(lia) eq_refl))|]. split; [exact (proj1 (curve_of_open arch 2 2 ltac:(cbn; lia) ltac:(lia) eq_refl))|].
  split; [exact joins_arch|]. split; [exact G|]. split; [exact arch_top|apply arch_lost; exact G].
Qed.
