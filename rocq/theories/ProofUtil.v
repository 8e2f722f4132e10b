(** Segments, columns, epsilons. *)
From Coq Require Import List ZArith QArith Qcanon Reals Bool Lra Lia.
From Verif Require Import Base BaseFacts LoopFacts ModelPlane ModelNewton ModelVecOps ModelUtil SpecPlane SpecVecOps SpecUtil ProofPlane ProofVecOps ProofRefineMisc.
Import ListNotations.
Local Open Scope R_scope.

Lemma norm_vsq a : norm a = sqrt (rvsq a). Proof. reflexivity. Qed.
Lemma vsq_nonneg a : 0 <= rvsq a. Proof. unfold rvsq. nra. Qed.

(** the determinant of the normal equations is the squared length of the cross product *)
Lemma lagrange a b : rvdot a a * rvdot b b - rvdot a b * rvdot a b = rvsq (rvcross a b).
Proof. destruct a, b. unfold rvdot, rvcross, rvsq. cbn. ring. Qed.
Lemma vsq_zero a : rvsq a = 0 -> a = RV 0 0 0.
Proof.
  destruct a as [x y z]. unfold rvsq. cbn. intros H.
  assert (x = 0) by nra. assert (y = 0) by nra. assert (z = 0) by nra. subst. reflexivity.
Qed.
Lemma at_param_add s e t : at_param s e t = rvadd s (rvscale (rvsub e s) t).
Proof. destruct s, e. unfold at_param, rvadd, rvscale, rvsub. cbn. apply v3r_eq; ring. Qed.

(** r = p1 - q1, w = r + t d1 - u d2 *)
Lemma closest_sq (r d1 d2 : v3r) :
  let a := rvdot d1 d1 in let b := rvdot d1 d2 in let c := rvdot d2 d2 in
  let d := rvdot d1 r in let e := rvdot d2 r in let D := a * c - b * b in
  D <> 0 -> forall s v,
  rvsq (rvsub (rvadd r (rvscale d1 ((b * e - c * d) / D))) (rvscale d2 ((a * e - b * d) / D))) <=
  rvsq (rvsub (rvadd r (rvscale d1 s)) (rvscale d2 v)).
Proof.
  intros a b c d e D HD s v.
  set (t := (b * e - c * d) / D). set (u := (a * e - b * d) / D).
  set (w := rvsub (rvadd r (rvscale d1 t)) (rvscale d2 u)).
  assert (rvdot w d1 = 0) as E1.
  { transitivity (d + t * a - u * b). { unfold w, d, a, b. destruct r, d1, d2. unfold rvdot, rvsub, rvadd, rvscale. cbn. ring. }
    unfold t, u. transitivity ((d * D + a * (b * e - c * d) - b * (a * e - b * d)) / D). { field. exact HD. }
    unfold D. replace (d * (a * c - b * b) + a * (b * e - c * d) - b * (a * e - b * d)) with 0 by ring. unfold Rdiv. ring. }
  assert (rvdot w d2 = 0) as E2.
  { transitivity (e + t * b - u * c). { unfold w, e, b, c. destruct r, d1, d2. unfold rvdot, rvsub, rvadd, rvscale. cbn. ring. }
    unfold t, u. transitivity ((e * D + b * (b * e - c * d) - c * (a * e - b * d)) / D). { field. exact HD. }
    unfold D. replace (e * (a * c - b * b) + b * (b * e - c * d) - c * (a * e - b * d)) with 0 by ring. unfold Rdiv. ring. }
  assert (rvsq (rvsub (rvadd r (rvscale d1 s)) (rvscale d2 v)) =
    rvsq w + 2 * (s - t) * rvdot w d1 - 2 * (v - u) * rvdot w d2 + rvsq (rvsub (rvscale d1 (s - t)) (rvscale d2 (v - u)))) as ->.
  { unfold w. destruct r, d1, d2. unfold rvdot, rvsq, rvsub, rvadd, rvscale. cbn. ring. }
  rewrite E1, E2. pose proof (vsq_nonneg (rvsub (rvscale d1 (s - t)) (rvscale d2 (v - u)))). lra.
Qed.

Lemma segments_only fl p1 p2 q1 q2 : segments_distance_only fl p1 p2 q1 q2 = fst (fst (fst (fst (segments_distance fl p1 p2 q1 q2)))).
Proof. unfold segments_distance_only, segments_distance. cbv zeta. destruct (Req_EM_T _ 0); reflexivity. Qed.
Lemma length_mono fl a b : increasing fl -> rvsq a <= rvsq b -> rvlength fl a <= rvlength fl b.
Proof. intros M H. unfold rvlength. apply M, sqrt_le_1_alt, M, H. Qed.
Lemma segments_lines fl p1 p2 q1 q2 : crossing p1 p2 q1 q2 ->
  exists t u, segments_distance fl p1 p2 q1 q2 = (rvlength fl (rvsub (at_param q1 q2 u) (at_param p1 p2 t)), t, u, at_param p1 p2 t, at_param q1 q2 u) /\
  forall s v, distance (at_param p1 p2 t) (at_param q1 q2 u) <= distance (at_param p1 p2 s) (at_param q1 q2 v).
Proof.
  intros C. unfold segments_distance. cbv zeta.
  set (d1 := rvsub p2 p1). set (d2 := rvsub q2 q1). set (r := rvsub p1 q1).
  destruct (Req_EM_T (rvdot d1 d1 * rvdot d2 d2 - rvdot d1 d2 * rvdot d1 d2) 0) as [E|NE].
  - exfalso. rewrite lagrange in E. apply vsq_zero in E. exact (C E).
  - eexists. eexists. split; [rewrite !at_param_add; fold d1 d2; reflexivity|].
    intros s v. unfold distance, norm. apply sqrt_le_1_alt.
    pose proof (closest_sq r d1 d2 NE s v) as H. cbv zeta in H.
    assert (forall s v, rvsub (at_param p1 p2 s) (at_param q1 q2 v) = rvsub (rvadd r (rvscale d1 s)) (rvscale d2 v)) as EQ.
    { intros. unfold r, d1, d2. destruct p1, p2, q1, q2. unfold at_param, rvsub, rvadd, rvscale. cbn. apply v3r_eq; ring. }
    rewrite !EQ. exact H.
Qed.
(** without rounding the first result is the distance *)
Lemma exact_length a b : rvlength (fun x => x) (rvsub a b) = distance b a.
Proof. unfold rvlength, distance, norm. f_equal. destruct a, b. unfold rvsq, rvsub. cbn. ring. Qed.
Lemma round_length fl a b c d : increasing fl -> distance a b <= distance c d -> rvlength fl (rvsub b a) <= rvlength fl (rvsub d c).
Proof.
  intros M H. apply length_mono; [exact M|]. unfold distance, norm in H.
  assert (forall x y, rvsq (rvsub y x) = rvsq (rvsub x y)) as Sy. { intros x y. destruct x, y. unfold rvsq, rvsub. cbn. ring. }
  rewrite (Sy a b), (Sy c d). fold (rvsq (rvsub a b)) in H. fold (rvsq (rvsub c d)) in H.
  destruct (Rle_lt_dec (rvsq (rvsub a b)) (rvsq (rvsub c d))) as [L|L]; [exact L|exfalso].
  apply Rlt_not_le with (1 := sqrt_lt_1 _ _ (vsq_nonneg _) (vsq_nonneg _) L). exact H.
Qed.
Lemma fl_int fl (n : Z) : float_rounding fl -> (Z.abs n <= 2 ^ 24)%Z -> fl (IZR n) = IZR n.
Proof.
  intros (_ & F & _) H. specialize (F n 0%nat H ltac:(lia)). cbn in F. replace (IZR n / 1) with (IZR n) in F by field. exact F.
Qed.
Lemma segments_far fl : float_rounding fl -> exists p1 p2 q1 q2, fst (fst (fst (fst (segments_distance fl p1 p2 q1 q2)))) = 0 /\
  forall a b, on_segment p1 p2 a -> on_segment q1 q2 b -> 4 <= distance a b.
Proof.
  intros F. exists (RV 0 0 0), (RV 1 0 0), (RV 5 1 0), (RV 5 2 0). split.
  - unfold segments_distance. cbv zeta. unfold rvdot, rvsub, rvadd, rvscale. cbn [rx ry rz].
    destruct (Req_EM_T _ 0) as [E|NE]; [exfalso; lra|]. cbn [fst snd].
    unfold rvlength, rvsq. cbn [rx ry rz].
    match goal with |- fl (sqrt (fl ?x)) = 0 => replace x with 0 by (field; lra) end.
    rewrite (fl_int fl 0 F) by lia. rewrite sqrt_0. apply (fl_int fl 0 F). lia.
  - intros a b (t & Ht & ->) (u & Hu & ->). unfold distance, norm, rvsub, at_param. cbn.
    rewrite <- (sqrt_square 4) by lra. apply sqrt_le_1_alt. nra.
Qed.
Lemma segments_parallel fl : float_rounding fl -> exists p1 p2 q1 q2 a b, fst (fst (fst (fst (segments_distance fl p1 p2 q1 q2)))) = 5 /\
  on_segment p1 p2 a /\ on_segment q1 q2 b /\ distance a b = 4.
Proof.
  intros F. exists (RV 0 0 0), (RV 10 0 0), (RV 3 4 0), (RV 4 4 0), (RV 3 0 0), (RV 3 4 0). split; [|split; [|split]].
  - unfold segments_distance. cbv zeta. unfold rvdot, rvsub, rvadd, rvscale. cbn [rx ry rz].
    destruct (Req_EM_T _ 0) as [E|NE]; [|exfalso; lra]. cbn [fst snd].
    unfold rvlength, rvsq. cbn [rx ry rz].
    match goal with |- fl (sqrt (fl ?x)) = 5 => replace x with 25 by lra end.
    rewrite (fl_int fl 25 F) by lia. replace 25 with (5 * 5) by lra. rewrite sqrt_square by lra. apply (fl_int fl 5 F). lia.
  - exists (3 / 10). split; [lra|]. unfold at_param. cbn. apply v3r_eq; lra.
  - exists 0. split; [lra|]. unfold at_param. cbn. apply v3r_eq; lra.
  - unfold distance, norm, rvsub. cbn. replace ((3-3)*(3-3) + (0-4)*(0-4) + (0-0)*(0-0)) with (4*4) by lra. apply sqrt_square. lra.
Qed.
(** and lines that meet within the segments *)
Lemma segments_case : crossing (RV 0 0 0) (RV 2 0 0) (RV 1 (-1) 3) (RV 1 1 3) /\
  segments_distance (fun x => x) (RV 0 0 0) (RV 2 0 0) (RV 1 (-1) 3) (RV 1 1 3) = (3, 1 / 2, 1 / 2, RV 1 0 0, RV 1 0 3).
Proof.
  split. { unfold crossing, rvcross, rvsub. cbn. intros E. injection E. lra. }
  unfold segments_distance. cbv zeta. unfold rvdot, rvsub, rvadd, rvscale. cbn [rx ry rz].
  destruct (Req_EM_T _ 0) as [E|NE]; [exfalso; lra|].
  apply pair_equal_spec. split; [|apply v3r_eq; field; lra].
  apply pair_equal_spec. split; [|apply v3r_eq; field; lra].
  apply pair_equal_spec. split; [|field; lra]. apply pair_equal_spec. split; [|field; lra].
  unfold rvlength, rvsq. cbn [rx ry rz]. transitivity (sqrt (3 * 3)); [f_equal; field; lra|apply sqrt_square; lra].
Qed.

(** * vectorColumn *)
Lemma get_nth_ok {A} (l : list A) i a : nth_error l i = Some a -> get l i = Ok a.
Proof. unfold get. intros ->. reflexivity. Qed.
Lemma resize_length {A} (d : A) l n : length (resize d l n) = n.
Proof. unfold resize. rewrite app_length, firstn_length, repeat_length. lia. Qed.
Lemma set_nth_split {A} (l r : list A) x y : set_nth (l ++ y :: r) (length l) x = Ok (l ++ x :: r).
Proof. induction l as [|a l IH]; cbn; [reflexivity|]. rewrite IH. reflexivity. Qed.
Lemma column_loop {A} (k : nat) : forall (m1 m : list (list A)) c1 c rest old, length c1 = length m1 -> length old = length m -> is_column m k c ->
  for_up (length m) (length m1) (fun i (column : list A) =>
    row <- get (m1 ++ m) i ;; match nth_error row k with Some x => set_nth column i x | None => Throw EOutOfRange end) (c1 ++ old ++ rest) = Ok (c1 ++ c ++ rest).
Proof.
  intros m1 m. revert m1. induction m as [|row m IH]; intros m1 c1 c rest old L1 LO C.
  - inversion C; subst. destruct old; [|discriminate LO]. reflexivity.
  - inversion C as [|? x ? c' H C']; subst. destruct old as [|y old]; [discriminate LO|]. cbn [length for_up].
    rewrite (get_nth_ok (m1 ++ row :: m) (length m1) row) by (rewrite nth_error_app2, Nat.sub_diag by lia; reflexivity). cbn [bind]. rewrite H.
    cbn [app]. rewrite <- L1 at 1. rewrite set_nth_split. cbn [bind].
    specialize (IH (m1 ++ [row]) (c1 ++ [x]) c' rest old). rewrite !app_length in IH. cbn [length] in IH.
    rewrite <- !app_assoc in IH. cbn [app] in IH. replace (length m1 + 1)%nat with (S (length m1)) in IH by lia.
    rewrite IH; [reflexivity|lia|cbn in LO; lia|exact C'].
Qed.
Lemma column_ok {A} (d : A) m k c old row0 : nth_error m 0 = Some row0 -> (length m <= length row0)%nat -> is_column m k c ->
  vector_column d m k old = Ok (c ++ skipn (length m) (resize d old (length row0))).
Proof.
  intros H0 L C. unfold vector_column. rewrite (get_nth_ok m 0 row0 H0). cbn [bind].
  pose proof (column_loop k [] m [] c (skipn (length m) (resize d old (length row0))) (firstn (length m) (resize d old (length row0))) eq_refl) as H.
  cbn [app length] in H. rewrite firstn_skipn in H. apply H; [|exact C].
  rewrite firstn_length, resize_length. lia.
Qed.
Lemma column_square {A} (d : A) m k c old row0 : nth_error m 0 = Some row0 -> length row0 = length m -> is_column m k c ->
  vector_column d m k old = Ok c.
Proof.
  intros H0 L C. rewrite (column_ok d m k c old row0 H0 ltac:(lia) C).
  rewrite skipn_all2 by (rewrite resize_length; lia). rewrite app_nil_r. reflexivity.
Qed.
Lemma column_wide {A} (d : A) m k c old row0 : nth_error m 0 = Some row0 -> (length m < length row0)%nat -> is_column m k c ->
  exists x tail, vector_column d m k old = Ok (c ++ x :: tail).
Proof.
  intros H0 L C. rewrite (column_ok d m k c old row0 H0 ltac:(lia) C).
  destruct (skipn (length m) (resize d old (length row0))) as [|x tail] eqn:E; [|eauto].
  apply (f_equal (@length A)) in E. rewrite skipn_length, resize_length in E. cbn in E. lia.
Qed.
Lemma column_tall {A} (d : A) m k c old row0 : nth_error m 0 = Some row0 -> (length row0 < length m)%nat -> is_column m k c ->
  vector_column d m k old = UB.
Proof.
  intros H0 L C. unfold vector_column. rewrite (get_nth_ok m 0 row0 H0). cbn [bind].
  set (n := length row0) in *. set (col := resize d old n). assert (length col = n) as LC by apply resize_length.
  clearbody col. set (body := fun i (column : list A) => _).
  assert (forall cnt i col, (i <= n)%nat -> (n < i + cnt)%nat -> (i + cnt <= length m)%nat -> length col = n -> for_up cnt i body col = UB) as H.
  { clear col LC. induction cnt as [|cnt IH]; intros i col Hi Hn Hm LC; [lia|]. cbn [for_up].
    destruct (nth_error m i) as [row|] eqn:ER; [|apply nth_error_None in ER; lia].
    destruct (nth_error c i) as [x|] eqn:EX; [|apply nth_error_None in EX; pose proof (Forall2_length _ _ _ C); lia].
    assert (nth_error row k = Some x) as EK.
    { clear -C ER EX. revert i ER EX. induction C as [|r y m c H C IH]; intros [|i] ER EX; cbn in *; try discriminate; [congruence|eauto]. }
    unfold body at 1. rewrite (get_nth_ok m i row ER). cbn [bind]. rewrite EK.
    destruct (Nat.eq_dec i n) as [->|NE].
    - assert (forall (l : list A) i x, length l = i -> set_nth l i x = UB) as SU.
      { clear. induction l as [|a l IH]; intros i x <-; [reflexivity|]. cbn. rewrite IH by reflexivity. reflexivity. }
      rewrite (SU col n x LC). reflexivity.
    - destruct (set_nth_ok col i x ltac:(lia)) as (col' & -> & L' & _). cbn [bind]. apply IH; lia. }
  apply H; lia.
Qed.
(** a row without the column *)
Lemma column_throw {A} (d : A) m k old row0 i row : nth_error m 0 = Some row0 -> (length m <= length row0)%nat ->
  nth_error m i = Some row -> (length row <= k)%nat -> vector_column d m k old = Throw EOutOfRange.
Proof.
  intros H0 L Hi Hk. unfold vector_column. rewrite (get_nth_ok m 0 row0 H0). cbn [bind].
  set (col := resize d old (length row0)). assert (length col = length row0) as LC by apply resize_length. clearbody col.
  set (body := fun i (column : list A) => _).
  assert (i < length m)%nat as Lm by (apply nth_error_Some; congruence).
  assert (forall cnt j col, (j <= i)%nat -> (i < j + cnt)%nat -> (j + cnt <= length m)%nat -> length col = length row0 -> for_up cnt j body col = Throw EOutOfRange) as H.
  { clear col LC. induction cnt as [|cnt IH]; intros j col H1 H2 H3 LC; [lia|]. cbn [for_up].
    destruct (nth_error m j) as [r|] eqn:ER; [|apply nth_error_None in ER; lia].
    unfold body at 1. rewrite (get_nth_ok m j r ER). cbn [bind].
    destruct (nth_error r k) as [x|] eqn:EK; [|reflexivity].
    destruct (Nat.eq_dec j i) as [->|NE].
    - exfalso. rewrite Hi in ER. injection ER as <-. apply nth_error_None in Hk. congruence.
    - destruct (set_nth_ok col j x ltac:(lia)) as (col' & -> & L' & _). cbn [bind]. apply IH; lia. }
  apply H; lia.
Qed.
Lemma column_empty {A} (d : A) k old : vector_column d [] k old = UB. Proof. reflexivity. Qed.
Lemma column_tall_case : is_column [[1%Z]; [2%Z]] 0 [1%Z; 2%Z] /\ vector_column 0%Z [[1%Z]; [2%Z]] 0 [] = UB.
Proof. split; [repeat constructor|reflexivity]. Qed.
Lemma column_wide_case : is_column [[1; 2; 3]; [4; 5; 6]]%Z 1 [2; 5]%Z /\ vector_column 0%Z [[1; 2; 3]; [4; 5; 6]]%Z 1 [7; 8; 9]%Z = Ok [2; 5; 9]%Z.
Proof. split; [repeat constructor|reflexivity]. Qed.

(** * calc_epsilon *)
Local Open Scope Qc_scope.
Lemma eps_consts : 0 < Q2Qc (1 # 2 ^ 1074) /\ Q2Qc (1 # 2 ^ 1074) <= qc 1 4503599627370496 * EPS_DELTA /\ 0 < EPS_DELTA /\ 0 < qc 1 4503599627370496.
Proof. repeat split; vm_compute; congruence. Qed.
Lemma epsilon_pos x : 0 < calc_epsilon x.
Proof.
  destruct eps_consts as (A & _ & C & E). unfold calc_epsilon. cbv zeta. destruct (Qcltb_spec (Qcabs x) EPS_DELTA) as [L|L]; [exact A|].
  apply Qcnot_lt_le in L. generalize dependent (qc 1 4503599627370496). generalize dependent EPS_DELTA. intros; qc_nra.
Qed.
Lemma epsilon_mono x y : Qcabs x <= Qcabs y -> calc_epsilon x <= calc_epsilon y.
Proof.
  intros H. destruct eps_consts as (A & B & C & E). unfold calc_epsilon. cbv zeta.
  generalize dependent (qc 1 4503599627370496). generalize dependent EPS_DELTA. generalize dependent (Q2Qc (1 # 2 ^ 1074)).
  intros a A dl C e B E. destruct (Qcltb_spec (Qcabs x) dl) as [L|L]; destruct (Qcltb_spec (Qcabs y) dl) as [M|M];
    try apply Qcnot_lt_le in L; try apply Qcnot_lt_le in M; qc_nra.
Qed.
Lemma epsilon_small x : calc_epsilon x <= EPS_DELTA \/ calc_epsilon x = qc 1 4503599627370496 * Qcabs x.
Proof.
  destruct eps_consts as (A & B & C & E). unfold calc_epsilon. cbv zeta. destruct (Qcltb_spec (Qcabs x) EPS_DELTA) as [L|L]; [left|right; reflexivity].
  vm_compute; congruence.
Qed.
