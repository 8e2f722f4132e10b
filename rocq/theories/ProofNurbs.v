(** Proofs about span search, basis functions and curve evaluation. *)
From Coq Require Import List ZArith QArith Qcanon Bool Lia Lqa Field.
From Verif Require Import Base BaseFacts LoopFacts ModelVec ModelAabb ModelNurbs SpecNurbs ProofBspline.
Import ListNotations.
Open Scope Qc_scope.

Lemma qdiv_ok a b : b <> 0 -> qdiv a b = Ok (a / b).
Proof. intros H. unfold qdiv. destruct (Qceqb_spec b 0); [contradiction|reflexivity]. Qed.

(** ** find_span *)
Lemma span_loop_spec U u n : forall fuel span,
  (span <= n + 1)%nat -> (n + 1 <= span + fuel)%nat -> (n < length U)%nat ->
  exists s, span_loop fuel n span u U = Ok s /\ (span <= s <= n + 1)%nat /\
    (forall i, (span <= i < s)%nat -> knot U i <= u) /\
    ((s = n + 1)%nat \/ u < knot U s).
Proof.
  induction fuel; intros span H1 H2 H3; cbn [span_loop].
  - destruct (Nat.ltb_spec span (n + 1)); [lia|].
    exists span. split; [reflexivity|]. split; [lia|]. split; [intros; lia|left; lia].
  - destruct (Nat.ltb_spec span (n + 1)) as [L|L].
    + rewrite (get_ok _ _ 0) by lia. cbn [bind]. rewrite <- knot_nth by lia.
      destruct (Qcleb_spec (knot U span) u) as [Q|Q].
      * destruct (IHfuel (S span)) as (s & E & B & I & R); [lia|lia|lia|].
        exists s. split; [exact E|]. split; [lia|]. split; [|exact R].
        intros i Hi. destruct (Nat.eq_dec i span) as [->|]; [exact Q|]. apply I. lia.
      * exists span. split; [reflexivity|]. split; [lia|]. split; [intros; lia|]. right. apply Qcnot_le_lt. exact Q.
    + exists span. split; [reflexivity|]. split; [lia|]. split; [intros; lia|left; lia].
Qed.

Lemma find_span_spec n p U u : valid_knots n p U -> in_domain n p U u ->
  exists s, find_span n p u U = Ok s /\ (p <= s)%nat /\ is_span (knot U) n s u.
Proof.
  intros (Hp & HL & HS & HN) (D1 & D2). unfold find_span.
  destruct (span_loop_spec U u n (S n) (p + 1)) as (s & E & B & I & R); [lia|lia|lia|].
  rewrite E. cbn [bind]. exists (s - 1)%nat. split; [reflexivity|]. split; [lia|].
  split; [lia|]. split.
  - destruct (Nat.eq_dec (s - 1) p) as [->|]; [exact D1|]. apply I. lia.
  - replace (S (s - 1)) with s by lia. destruct R as [->|R]; [|left; exact R].
    replace (n + 1 - 1)%nat with n by lia. rewrite <- (Nat.add_1_r n).
    destruct (Qcle_lt_or_eq _ _ D2) as [H|H]; [left; exact H|right; split; [reflexivity|exact H]].
Qed.

(** ** basis_funs *)
Lemma zeros_length : length zeros = 9%nat. Proof. reflexivity. Qed.

Lemma basis_inner_loop U u i j lft rgt N :
  mono (knot U) -> span_ok (knot U) i u ->
  (1 <= j <= 8)%nat -> (j <= i)%nat -> length lft = 9%nat -> length rgt = 9%nat -> length N = 9%nat ->
  (forall k, (1 <= k <= j)%nat -> nth k lft 0 = u - knot U (i + 1 - k)) ->
  (forall k, (1 <= k <= j)%nat -> nth k rgt 0 = knot U (i + k) - u) ->
  (forall r, (r < j)%nat -> nth r N 0 = bsp (knot U) i (j - 1) (i - (j - 1) + r) u) ->
  exists N' saved, for_up j 0 (basis_inner j lft rgt) (N, 0) = Ok (N', saved) /\ length N' = 9%nat /\
    (forall r, (r < j)%nat -> nth r N' 0 = bsp (knot U) i j (i - j + r) u) /\
    (forall r, (j <= r)%nat -> nth r N' 0 = nth r N 0) /\
    saved = bsp (knot U) i j i u.
Proof.
  intros M HS Hj Hji Ll Lr LN Hl Hr HN.
  set (tmp := fun r => bsp (knot U) i (j - 1) (i - (j - 1) + r) u / (knot U (i + r + 1) - knot U (i + 1 - (j - r)))).
  set (sv := fun r => match r with O => 0 | S q => (u - knot U (i + 1 - (j - q))) * tmp q end).
  destruct (for_up_inv (fun r (st : list Qc * Qc) =>
     length (fst st) = 9%nat /\
     (forall k, (k < r)%nat -> nth k (fst st) 0 = bsp (knot U) i j (i - j + k) u) /\
     (forall k, (r <= k)%nat -> nth k (fst st) 0 = nth k N 0) /\ snd st = sv r)
     (basis_inner j lft rgt) j 0 (N, 0)) as ([N' saved] & E & Q).
  - cbn. split; [assumption|]. split; [intros; lia|]. split; [intros; reflexivity|reflexivity].
  - intros r [N1 saved] _ Hrj (L1 & A & B & C). cbn [fst snd] in *. cbn [Nat.add] in Hrj.
    unfold basis_inner.
    rewrite (get_ok _ _ 0) by lia. cbn [bind].
    rewrite (get_ok _ _ 0) by lia. cbn [bind].
    rewrite (get_ok _ _ 0) by lia. cbn [bind].
    rewrite B by lia. rewrite HN by lia. rewrite Hr by lia. rewrite Hl by lia.
    rewrite qdiv_ok.
    2:{ destruct HS as (a & b & c).
        assert (knot U (i + 1 - (j - r)) <= knot U i) by (apply M; lia).
        assert (knot U (S i) <= knot U (i + (r + 1))) by (apply M; lia).
        intros Z. qc_lra. }
    cbn [bind].
    assert (bsp (knot U) i (j - 1) (i - (j - 1) + r) u / (knot U (i + (r + 1)) - u + (u - knot U (i + 1 - (j - r)))) = tmp r) as ->.
    { unfold tmp. replace (i + (r + 1))%nat with (i + r + 1)%nat by lia. f_equal. ring. }
    destruct (set_nth_ok N1 r (saved + (knot U (i + (r + 1)) - u) * tmp r)) as (N2 & E2 & L2 & G2); [lia|].
    rewrite E2. cbn [bind]. eexists. split; [reflexivity|]. cbn [fst snd].
    split; [lia|]. split; [|split].
    + intros k Hk. rewrite G2. destruct (Nat.eqb_spec k r) as [->|Hkr]; [|apply A; lia].
      rewrite C. destruct j as [|q]; [lia|]. cbn [bsp].
      replace (i - S q + r + S q + 1)%nat with (i + r + 1)%nat by lia.
      replace (i - S q + r + S q)%nat with (i + r)%nat by lia.
      replace (i - S q + r + 1)%nat with (i + 1 - (S q - r))%nat by lia.
      unfold tmp. replace (i - (S q - 1) + r)%nat with (i + 1 - (S q - r))%nat by lia.
      replace (S q - 1)%nat with q by lia. replace (i + (r + 1))%nat with (i + r + 1)%nat by lia.
      destruct r as [|r'].
      * cbn [sv]. rewrite (bsp_left _ _ q (i - S q + 0)) by lia. unfold Qcdiv. ring.
      * cbn [sv]. unfold tmp.
        replace (S q - 1)%nat with q by lia.
        replace (i - q + r')%nat with (i - S q + S r')%nat by lia.
        replace (i + r' + 1)%nat with (i + S r')%nat by lia.
        replace (i + 1 - (S q - r'))%nat with (i - S q + S r')%nat by lia.
        unfold Qcdiv. ring.
    + intros k Hk. rewrite G2. destruct (Nat.eqb_spec k r); [lia|]. apply B. lia.
    + cbn [sv]. reflexivity.
  - exists N', saved. cbn [fst snd Nat.add] in Q. destruct Q as (L & A & B & C).
    split; [exact E|]. split; [exact L|]. split; [exact A|]. split; [exact B|].
    rewrite C. destruct j as [|q]; [lia|]. cbn [sv bsp].
    rewrite (bsp_right _ _ q (i + 1)) by lia. unfold tmp.
    replace (S q - 1)%nat with q by lia. replace (i - q + q)%nat with i by lia.
    replace (i + 1 - (S q - q))%nat with i by lia. replace (i + q + 1)%nat with (i + S q)%nat by lia.
    unfold Qcdiv. ring.
Qed.

Lemma basis_funs_spec U u i p N0 :
  mono (knot U) -> span_ok (knot U) i u -> (p <= 8)%nat -> (p <= i)%nat -> (i + p < length U)%nat -> length N0 = 9%nat ->
  exists N, basis_funs i u p U N0 = Ok N /\ length N = 9%nat /\
    (forall r, (r <= p)%nat -> nth r N 0 = bsp (knot U) i p (i - p + r) u) /\
    (forall r, (p < r)%nat -> nth r N 0 = nth r N0 0).
Proof.
  intros M HS Hp Hi HL LN. unfold basis_funs.
  destruct (set_nth_ok N0 0 1) as (N & E & L & G); [lia|]. rewrite E. cbn [bind].
  destruct (for_up_inv (fun j (st : list Qc * list Qc * list Qc) =>
     let '(N1, lft, rgt) := st in
     length N1 = 9%nat /\ length lft = 9%nat /\ length rgt = 9%nat /\
     (forall k, (1 <= k < j)%nat -> nth k lft 0 = u - knot U (i + 1 - k)) /\
     (forall k, (1 <= k < j)%nat -> nth k rgt 0 = knot U (i + k) - u) /\
     (forall r, (r < j)%nat -> nth r N1 0 = bsp (knot U) i (j - 1) (i - (j - 1) + r) u) /\
     (forall r, (j <= r)%nat -> nth r N1 0 = nth r N0 0))
     (basis_outer i u U) p 1 (N, zeros, zeros)) as ([[N' lft] rgt] & E2 & Q).
  - split; [lia|]. split; [reflexivity|]. split; [reflexivity|].
    split; [intros; lia|]. split; [intros; lia|]. split.
    + intros r Hr. assert (r = 0)%nat as -> by lia. rewrite G. cbn.
      replace (i - 0 + 0)%nat with i by lia. rewrite Nat.eqb_refl. reflexivity.
    + intros r Hr. rewrite G. destruct (Nat.eqb_spec r 0); [lia|reflexivity].
  - intros j [[N1 lft] rgt] Hj1 Hj2 (L1 & Ll & Lr & Hl & Hr & HN & Hrest).
    unfold basis_outer.
    rewrite (getZ_ok _ _ 0) by lia. cbn [bind].
    destruct (set_nth_ok lft j (u - nth (Z.to_nat (Z.of_nat i + 1 - Z.of_nat j)) U 0)) as (lft' & El & Ll' & Gl); [lia|].
    rewrite El. cbn [bind]. rewrite (get_ok _ _ 0) by lia. cbn [bind].
    destruct (set_nth_ok rgt j (nth (i + j) U 0 - u)) as (rgt' & Er & Lr' & Gr); [lia|].
    rewrite Er. cbn [bind].
    destruct (basis_inner_loop U u i j lft' rgt' N1) as (N2 & saved & E3 & L3 & A3 & B3 & C3).
    + exact M. + exact HS. + lia. + lia. + lia. + lia. + lia.
    + intros k Hk. rewrite Gl. destruct (Nat.eqb_spec k j) as [->|]; [|apply Hl; lia].
      rewrite knot_nth by lia. do 2 f_equal. lia.
    + intros k Hk. rewrite Gr. destruct (Nat.eqb_spec k j) as [->|]; [|apply Hr; lia].
      rewrite knot_nth by lia. reflexivity.
    + exact HN.
    + rewrite E3. cbn [bind].
      destruct (set_nth_ok N2 j saved) as (N3 & E4 & L4 & G4); [lia|]. rewrite E4. cbn [bind].
      eexists. split; [reflexivity|]. cbn beta iota.
      split; [lia|]. split; [lia|]. split; [lia|].
      split; [|split; [|split]].
      * intros k Hk. rewrite Gl. destruct (Nat.eqb_spec k j) as [->|]; [|apply Hl; lia].
        rewrite knot_nth by lia. do 2 f_equal. lia.
      * intros k Hk. rewrite Gr. destruct (Nat.eqb_spec k j) as [->|]; [|apply Hr; lia].
        rewrite knot_nth by lia. reflexivity.
      * intros r Hrj. replace (S j - 1)%nat with j by lia. rewrite G4.
        destruct (Nat.eqb_spec r j) as [->|]; [|apply A3; lia].
        rewrite C3. f_equal. lia.
      * intros r Hrj. rewrite G4. destruct (Nat.eqb_spec r j); [lia|]. rewrite B3 by lia. apply Hrest. lia.
  - rewrite E2. cbn [bind]. destruct Q as (L1 & _ & _ & _ & _ & A & B).
    exists N'. split; [reflexivity|]. split; [exact L1|]. replace (1 + p - 1)%nat with p in A by lia.
    split; [intros; apply A; lia|intros; apply B; lia].
Qed.

Lemma tuple4_eq {A} (a b c d a' b' c' d' : A) : a = a' -> b = b' -> c = c' -> d = d' -> (a, b, c, d) = (a', b', c', d').
Proof. congruence. Qed.

(** ** curve_point *)
Lemma curve_point_loop p span P N :
  (p <= span)%nat -> (span < length P)%nat -> (p < length N)%nat ->
  let B := fun c : vec4 -> Qc => fun r => nth r N 0 * ww (nth (span - p + r) P (V4 0 0 0 0)) * c (nth (span - p + r) P (V4 0 0 0 0)) in
  for_up (p + 1) 0 (curve_point_step p span P N) (0, 0, 0, 0) =
  Ok (qsum (B (fun _ => 1)) (S p), qsum (B wx) (S p), qsum (B wy) (S p), qsum (B wz) (S p)).
Proof.
  intros H1 H2 H3 B.
  destruct (for_up_inv (fun r (st : Qc * Qc * Qc * Qc) =>
     st = (qsum (B (fun _ => 1)) r, qsum (B wx) r, qsum (B wy) r, qsum (B wz) r))
     (curve_point_step p span P N) (p + 1) 0 (0, 0, 0, 0)) as (st & E & Q).
  - reflexivity.
  - intros r st _ Hr ->. unfold curve_point_step.
    rewrite (getZ_ok _ _ (V4 0 0 0 0)) by lia. cbn [bind]. rewrite (get_ok _ _ 0) by lia. cbn [bind].
    replace (Z.to_nat (Z.of_nat span - Z.of_nat p + Z.of_nat r)) with (span - p + r)%nat by lia.
    eexists. split; [reflexivity|]. cbn [qsum]. unfold B. apply tuple4_eq; ring.
  - rewrite E, Q. cbn [Nat.add]. rewrite Nat.add_1_r. reflexivity.
Qed.

Lemma basis_at_bsp n p U u s i : valid_knots n p U -> in_domain n p U u -> is_span (knot U) n s u ->
  basis_at U n p u i = bsp (knot U) s p i u.
Proof.
  intros (_ & _ & HS & _) (_ & D) S. unfold basis_at. apply bspline_bsp.
  apply is_span_pick; [apply sorted_mono; assumption|assumption|]. rewrite <- (Nat.add_1_r n). assumption.
Qed.

Lemma valid_span_ok n p U u s : valid_knots n p U -> is_span (knot U) n s u -> span_ok (knot U) s u.
Proof.
  intros (_ & _ & HS & HN) S. eapply is_span_ok; [apply sorted_mono; assumption|eassumption|].
  rewrite <- (Nat.add_1_r n). assumption.
Qed.

Lemma curve_point_spec n p U P u :
  valid_knots n p U -> in_domain n p U u -> (p <= 8)%nat -> length P = S n -> weight_at U n p P u <> 0 ->
  curve_point n p U P u = Ok (rational_point U n p P u).
Proof.
  intros V D Hp HP HW. unfold curve_point.
  destruct (find_span_spec n p U u V D) as (s & E & Hs & S). rewrite E. cbn [bind].
  pose proof (valid_span_ok _ _ _ _ _ V S) as SO.
  pose proof V as (Hn & HL & HS & HN). pose proof S as (Hsn & _).
  destruct (basis_funs_spec U u s p zeros) as (N & E2 & L2 & G2 & _); [apply sorted_mono; assumption|assumption|assumption|lia|lia|reflexivity|].
  rewrite E2. cbn [bind]. rewrite curve_point_loop by lia. cbn [bind].
  set (d := V4 0 0 0 0) in *.
  assert (forall c : vec4 -> Qc, qsum (fun i => basis_at U n p u i * ww (nth i P d) * c (nth i P d)) (Datatypes.S n) =
    qsum (fun r => nth r N 0 * ww (nth (s - p + r) P d) * c (nth (s - p + r) P d)) (Datatypes.S p)) as K.
  { intros c. rewrite (qsum_ext _ (fun i => bsp (knot U) s p i u * (ww (nth i P d) * c (nth i P d)))).
    2:{ intros i _. rewrite (basis_at_bsp n p U u s) by assumption. ring. }
    rewrite (bsp_sum_support (knot U) s p u (fun i => ww (nth i P d) * c (nth i P d))) by lia.
    apply qsum_ext. intros r Hr. rewrite G2 by lia. ring. }
  assert (weight_at U n p P u = qsum (fun r => nth r N 0 * ww (nth (s - p + r) P d) * 1) (Datatypes.S p)) as KW.
  { rewrite <- (K (fun _ => 1)). unfold weight_at. apply qsum_ext. intros. fold d. ring. }
  rewrite <- KW. rewrite !qdiv_ok by assumption. cbn [bind].
  rewrite <- (K wx), <- (K wy), <- (K wz). reflexivity.
Qed.
