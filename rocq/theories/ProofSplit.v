(** split: both halves reproduce the curve. *)
From Coq Require Import List ZArith QArith Qcanon Bool Lia Lqa Field.
From Verif Require Import Base BaseFacts LoopFacts ModelVec ModelAabb SpecAabb ProofAabb ModelNurbs SpecNurbs ProofBspline ProofInsertion ProofNurbs ProofInsertCurve ProofInsertKnot ProofCurve.
Import ListNotations.
Open Scope Qc_scope.

(** a basis function only depends on the knots of its support *)
Lemma bsp_local U V s p u : forall i, (forall j, (i <= j <= i + p + 1)%nat -> U j = V j) -> bsp U s p i u = bsp V s p i u.
Proof.
  induction p; intros i H; cbn [bsp]; [reflexivity|].
  rewrite !IHp by (intros; apply H; lia). rewrite !H by lia. reflexivity.
Qed.

Lemma bsp_shift U V a s p u : (forall j, V j = U (a + j)%nat) -> forall i, bsp V s p i u = bsp U (a + s) p (a + i) u.
Proof.
  intros H. induction p; intros i; cbn [bsp].
  - destruct (Nat.eqb_spec i s), (Nat.eqb_spec (a + i) (a + s)); try lia; reflexivity.
  - rewrite !IHp, !H. rewrite !Nat.add_assoc. reflexivity.
Qed.

(** the support of the last basis function: its right end does not matter left of it *)
Lemma bsp_last_local U V s p i u : (s <= i)%nat -> (forall j, (i <= j <= i + p)%nat -> U j = V j) -> bsp U s p i u = bsp V s p i u.
Proof.
  intros Hs. destruct p; intros H; cbn [bsp]; [reflexivity|].
  rewrite (bsp_right U s p (i + 1)), (bsp_right V s p (i + 1)) by lia.
  rewrite (bsp_local U V s p u i) by (intros; apply H; lia).
  rewrite !Qcmult_0_r. rewrite !H by lia. reflexivity.
Qed.
Lemma bsp_first_local U V s p i u : (i + p <= s)%nat -> (forall j, (i < j <= i + p + 1)%nat -> U j = V j) -> bsp U s p i u = bsp V s p i u.
Proof.
  intros Hs. destruct p; intros H; cbn [bsp]; [reflexivity|].
  rewrite (bsp_left U s p i), (bsp_left V s p i) by lia.
  rewrite (bsp_local U V s p u (i + 1)) by (intros; apply H; lia).
  rewrite !Qcmult_0_r. rewrite !H by lia. reflexivity.
Qed.

Section Halves.
  (** V has p copies of t at a+1 .. a+p *)
  Variables (V : nat -> Qc) (a p N : nat) (t : Qc).
  Hypothesis M : mono V.
  Hypothesis Hp : (1 <= p)%nat.
  Hypothesis HaN : (a + p <= N)%nat.
  Hypothesis HT : forall j, (a < j <= a + p)%nat -> V j = t.
  Hypothesis Ha : V a < t.
  Hypothesis Hb : t < V (a + p + 1)%nat.

  Definition left_knots (i : nat) : Qc := if Nat.leb i (a + p) then V i else t.
  Definition right_knots (i : nat) : Qc := if Nat.leb i p then t else V (a + i)%nat.

  Lemma left_mono : mono left_knots.
  Proof.
    intros i j H. unfold left_knots. destruct (Nat.leb_spec i (a + p)), (Nat.leb_spec j (a + p)); try lia.
    - apply M; assumption.
    - rewrite <- (HT (a + p)) by lia. apply M. lia.
    - apply Qcle_refl.
  Qed.
  Lemma right_mono : mono right_knots.
  Proof.
    intros i j H. unfold right_knots. destruct (Nat.leb_spec i p), (Nat.leb_spec j p); try lia.
    - apply Qcle_refl.
    - assert (V (a + p + 1)%nat <= V (a + j)%nat) by (apply M; lia). qc_lra.
    - apply M; lia.
  Qed.

  Lemma left_sum u (Q : nat -> Qc) s : is_span V N s u -> u <= V (S N) -> V N < V (S N) -> u <= t -> (p <= a)%nat ->
    exists s1, is_span left_knots a s1 u /\ span_ok left_knots s1 u /\
    qsum (fun i => bsp left_knots s1 p i u * Q i) (S a) = qsum (fun i => bsp V s p i u * Q i) (S N).
  Proof.
    intros IS Hu HN Ht Hpa. pose proof (is_span_ok _ _ _ _ M IS HN) as SO.
    destruct IS as (I1 & I2 & I3).
    destruct (Qcle_lt_or_eq _ _ Ht) as [L|E].
    - assert (s <= a)%nat as Hs.
      { destruct (Nat.le_gt_cases s a); [assumption|]. exfalso.
        assert (V (a + 1)%nat <= V s) by (apply M; lia). rewrite (HT (a + 1)) in H0 by lia. qc_lra. }
      assert (u < V (S s)) as I3'.
      { destruct I3 as [I3|[I3 _]]; [assumption|]. lia. }
      exists s. assert (is_span left_knots a s u) as IS'.
      { split; [assumption|]. unfold left_knots. destruct (Nat.leb_spec s (a + p)); [|lia].
        split; [assumption|]. left. destruct (Nat.leb_spec (S s) (a + p)); [assumption|lia]. }
      split; [assumption|]. split.
      { eapply is_span_ok; [apply left_mono|exact IS'|]. unfold left_knots.
        destruct (Nat.leb_spec a (a + p)); [|lia]. destruct (Nat.leb_spec (S a) (a + p)); [|lia]. rewrite (HT (S a)) by lia. assumption. }
      replace (S N) with (S a + (N - a))%nat by lia. rewrite qsum_split. rewrite (qsum_zero _ (N - a)).
      2:{ intros i _. rewrite bsp_right by lia. ring. }
      rewrite Qcplus_0_r. apply qsum_ext. intros i Hi. f_equal.
      destruct (Nat.eq_dec i a) as [->|].
      + apply bsp_last_local; [assumption|]. intros j Hj. unfold left_knots. destruct (Nat.leb_spec j (a + p)); [reflexivity|lia].
      + apply bsp_local. intros j Hj. unfold left_knots. destruct (Nat.leb_spec j (a + p)); [reflexivity|lia].
    - subst u. assert (s = a + p)%nat as Es.
      { assert (t < V (S s)) as L. { destruct I3 as [I3|[-> I3]]; [assumption|].
          assert (V (a + p + 1)%nat <= V (S N)) by (apply M; lia). exfalso. qc_lra. }
        apply (span_unique V s (a + p) t M); try assumption.
        - rewrite HT by lia. apply Qcle_refl.
        - replace (S (a + p)) with (a + p + 1)%nat by lia. assumption. }
      assert (is_span left_knots a a t) as IS'.
      { split; [lia|]. unfold left_knots. destruct (Nat.leb_spec a (a + p)); [|lia]. split; [qc_lra|].
        right. split; [reflexivity|]. destruct (Nat.leb_spec (S a) (a + p)); [|lia]. rewrite HT by lia. reflexivity. }
      assert (span_ok left_knots a t) as SO'.
      { eapply is_span_ok; [apply left_mono|exact IS'|]. unfold left_knots.
        destruct (Nat.leb_spec a (a + p)); [|lia]. destruct (Nat.leb_spec (S a) (a + p)); [|lia]. rewrite (HT (S a)) by lia. assumption. }
      exists a. split; [assumption|]. split; [assumption|].
      rewrite (qsum_ext _ (fun i => (if Nat.eqb i a then 1 else 0) * Q i)).
      2:{ intros i _. f_equal. apply bsp_mult_right; [apply left_mono|assumption|].
          intros j Hj. unfold left_knots. destruct (Nat.leb_spec j (a + p)); [apply HT; lia|reflexivity]. }
      rewrite qsum_delta by lia.
      rewrite (qsum_ext _ (fun i => (if Nat.eqb i a then 1 else 0) * Q i)).
      2:{ intros i _. f_equal. rewrite bsp_mult_left; [|assumption|assumption|lia|].
          - subst s. replace (a + p - p)%nat with a by lia. reflexivity.
          - intros j Hj. apply HT. lia. }
      rewrite qsum_delta by lia. reflexivity.
  Qed.

  Lemma right_sum u (Q : nat -> Qc) s : is_span V N s u -> u <= V (S N) -> V N < V (S N) -> t <= u ->
    exists s2, is_span right_knots (N - a) s2 u /\ span_ok right_knots s2 u /\
    qsum (fun i => bsp right_knots s2 p i u * Q (a + i)%nat) (S (N - a)) = qsum (fun i => bsp V s p i u * Q i) (S N).
  Proof.
    intros IS Hu HN Ht. pose proof (is_span_ok _ _ _ _ M IS HN) as SO.
    destruct IS as (I1 & I2 & I3).
    assert (a + p <= s)%nat as Hs.
    { destruct (Nat.le_gt_cases (a + p) s) as [|L]; [assumption|]. exfalso.
      assert (u < V (S s)) by (destruct I3 as [I3|[I3 _]]; [assumption|lia]).
      assert (V (S s) <= V (a + p)%nat) by (apply M; lia). rewrite (HT (a + p)) in H0 by lia. qc_lra. }
    assert (forall i, (1 <= i)%nat -> right_knots i = V (a + i)%nat) as RK.
    { intros i Hi. unfold right_knots. destruct (Nat.leb_spec i p); [symmetry; apply HT; lia|reflexivity]. }
    exists (s - a)%nat. assert (is_span right_knots (N - a) (s - a) u) as IS'.
    { split; [lia|]. rewrite !RK by lia. replace (a + (s - a))%nat with s by lia. replace (a + S (s - a))%nat with (S s) by lia.
      replace (a + S (N - a))%nat with (S N) by lia. split; [assumption|]. destruct I3 as [I3|[-> I3]]; [left; assumption|right; auto]. }
    split; [assumption|]. split.
    { eapply is_span_ok; [apply right_mono|exact IS'|]. rewrite !RK by lia.
      replace (a + (N - a))%nat with N by lia. replace (a + S (N - a))%nat with (S N) by lia. assumption. }
    replace (S N) with (a + S (N - a))%nat by lia. rewrite (qsum_split _ a). rewrite (qsum_zero _ a).
    2:{ intros i Hi. rewrite bsp_left by lia. ring. }
    rewrite Qcplus_0_l. apply qsum_ext. intros i Hi. f_equal.
    replace s with (a + (s - a))%nat at 2 by lia.
    rewrite <- (bsp_shift V (fun j => V (a + j)%nat) a (s - a) p u) by reflexivity.
    destruct (Nat.eq_dec i 0) as [->|].
    - apply bsp_first_local; [lia|]. intros j Hj. apply RK. lia.
    - apply bsp_local. intros j Hj. apply RK. lia.
  Qed.
End Halves.

(** ** the member function *)
Lemma sub_vec_ok {A} (l : list A) f e : (f <= e)%nat -> (e <= length l)%nat ->
  sub_vec l (Z.of_nat f) (Z.of_nat e) = Ok (firstn (e - f) (skipn f l)).
Proof.
  intros H1 H2. unfold sub_vec.
  destruct (Z.leb_spec 0 (Z.of_nat f)), (Z.leb_spec (Z.of_nat f) (Z.of_nat e)), (Z.leb_spec (Z.of_nat e) (Z.of_nat (length l))); try lia.
  cbn [andb]. rewrite Nat2Z.id. f_equal. f_equal. lia.
Qed.

Lemma make_knots_unit cps p kv per : unit_weights cps -> cps <> [] -> sorted kv -> kv <> [] ->
  exists c, nc_make_knots cps p kv per = Ok c /\ nc_cps c = cps /\ nc_degree c = p /\ nc_knots c = kv /\
    nc_periodic c = per /\ nc_interval c = (knot kv 0, knot kv (length kv - 1)) /\
    (forall q, In q cps -> inside (nc_aabb c) (xyz q)) /\
    (forall b', (forall q, In q cps -> inside b' (xyz q)) -> subbox (nc_aabb c) b').
Proof.
  intros HW NE HS NK. unfold nc_make_knots. rewrite update_interval_sorted by assumption. cbn [bind].
  match goal with |- context [rebuildAABB ?c] => destruct (rebuild_unit c) as (b & E & B1 & B2); [exact HW|exact NE|] end.
  rewrite E. eexists. split; [reflexivity|]. cbn. auto 10.
Qed.

Lemma sep_ends U t x : separated U t -> In x U -> x <> t -> Qcabs (t - x) <=? lit_1em12 = false.
Proof. intros S I N. rewrite abs_sep by (apply S; assumption). qcb. congruence. Qed.

(** what a part of a split curve is *)
Definition part_of (c part : ncurve) (n : nat) (lo hi : Qc) : Prop :=
  exists m, length (nc_cps part) = S m /\ valid_knots m (nc_degree c) (nc_knots part) /\
    nc_degree part = nc_degree c /\ nc_periodic part = false /\
    nc_interval part = (knot (nc_knots part) 0, knot (nc_knots part) (length (nc_knots part) - 1)) /\
    unit_weights (nc_cps part) /\
    knot (nc_knots part) (nc_degree c) = lo /\ knot (nc_knots part) (m + 1) = hi /\
    (forall q, In q (nc_cps part) -> inside (nc_aabb part) (xyz q)) /\
    (forall u, lo <= u -> u <= hi ->
       poly_point (nc_knots part) m (nc_degree c) (nc_cps part) u = poly_point (nc_knots c) n (nc_degree c) (nc_cps c) u).

Lemma firstn_app_exact {A} (l1 l2 : list A) n : length l1 = n -> firstn n (l1 ++ l2) = l1.
Proof. intros <-. rewrite firstn_app, Nat.sub_diag, firstn_all. cbn. apply app_nil_r. Qed.
Lemma skipn_app_exact {A} (l1 l2 : list A) n : length l1 = n -> skipn n (l1 ++ l2) = l2.
Proof. intros <-. rewrite skipn_app, Nat.sub_diag, skipn_all. reflexivity. Qed.

Lemma unit_from_pq U k p t r n (P cps : list vec4) : unit_weights P -> length P = S n -> length cps = (S n + r)%nat -> (k <= n)%nat ->
  (forall i, (i < S n + r)%nat -> ww (nth i cps d4) = pq U k p t (fun i => ww (nth i P d4)) r i) ->
  unit_weights cps.
Proof.
  intros HW HP HL Hk G q Hq. destruct (In_nth _ _ d4 Hq) as (i & Hi & <-). rewrite G by lia.
  assert (forall q i, (i < S n + q)%nat -> pq U k p t (fun i => ww (nth i P d4)) q i = 1) as K.
  { clear - HW HP Hk. induction q; intros i Hi; cbn [pq].
    - apply HW. apply nth_In. lia.
    - cbv zeta. destruct (Nat.eq_dec i (S n + q)) as [->|].
      + rewrite al_hi by lia. rewrite (IHq (S n + q - 1)%nat) by lia. ring.
      + rewrite !IHq by lia. ring. }
  apply K. lia.
Qed.

(** the control points of the parts, and that their boxes are the smallest around them *)
Definition split_points (c : ncurve) (n : nat) (t : Qc) (k : nat) (c1 c2 : ncurve) : Prop :=
  let s := multiplicity (nc_knots c) t in
  exists cps, length cps = (S n + (nc_degree c - s))%nat /\
    (forall i, (i < S n + (nc_degree c - s))%nat -> forall f, comp4 f ->
       f (nth i cps d4) = pq (knot (nc_knots c)) k (nc_degree c) t (fun i => f (nth i (nc_cps c) d4)) (nc_degree c - s) i) /\
    nc_cps c1 = firstn (S (k - s)) cps /\ nc_cps c2 = skipn (k - s) cps /\
    (forall b', (forall q, In q (nc_cps c1) -> inside b' (xyz q)) -> subbox (nc_aabb c1) b') /\
    (forall b', (forall q, In q (nc_cps c2) -> inside b' (xyz q)) -> subbox (nc_aabb c2) b').

Lemma split_ok c n t k :
  length (nc_cps c) = S n -> valid_knots n (nc_degree c) (nc_knots c) -> (1 <= nc_degree c <= 8)%nat ->
  unit_weights (nc_cps c) ->
  nc_interval c = (knot (nc_knots c) 0, knot (nc_knots c) (length (nc_knots c) - 1)) ->
  (nc_degree c <= k <= n)%nat -> knot (nc_knots c) k <= t -> t < knot (nc_knots c) (S k) ->
  knot (nc_knots c) (nc_degree c) < t -> t < knot (nc_knots c) (n + 1) ->
  separated (nc_knots c) t -> (multiplicity (nc_knots c) t <= nc_degree c)%nat ->
  exists c1 c2, nc_split c t false = Ok (c1, c2) /\
    part_of c c1 n (knot (nc_knots c) (nc_degree c)) t /\
    part_of c c2 n t (knot (nc_knots c) (n + 1)) /\
    nc_knots c1 = firstn (k + 1) (nc_knots c) ++ repeat t (nc_degree c - multiplicity (nc_knots c) t) ++ [t] /\
    nc_knots c2 = repeat t (nc_degree c + 1) ++ skipn (k + 1) (nc_knots c) /\
    split_points c n t k c1 c2.
Proof.
  intros HP V H8 HW HI Hk T1 T2 D1 D2 SEP Hm. pose proof V as (Hpn & HL & HS & HN).
  unfold nc_split. set (U := nc_knots c) in *. set (p := nc_degree c) in *. set (P := nc_cps c) in *.
  pose proof (sorted_mono U HS) as M. rewrite HI.
  assert (knot U 0 <= knot U p) as Z0 by (apply M; lia).
  assert (knot U (n + 1) <= knot U (length U - 1)) as Z1 by (apply M; lia).
  assert ((t <=? knot U 0) || (knot U (length U - 1) <=? t) || (Qcabs (t - knot U 0) <=? lit_1em12)
           || (Qcabs (t - knot U (length U - 1)) <=? lit_1em12) = false) as ->.
  { rewrite !sep_ends with (U := U); try assumption.
    - rewrite !orb_false_r. apply orb_false_intro; qcb; qc_lra.
    - rewrite knot_nth by lia. apply nth_In. lia.
    - intros E. rewrite E in Z1. qc_lra.
    - rewrite knot_nth by lia. apply nth_In. lia.
    - intros E. rewrite E in Z0. qc_lra. }
  rewrite HP. rewrite (find_span_at (S n) p U k t M) by (lia || assumption). cbn [bind].
  rewrite find_multiplicity_spec by assumption. set (s := multiplicity U t) in *.
  destruct (multiplicity_span U k t HS ltac:(lia) T1 T2) as (S1 & S2 & S3). fold s in S1, S2, S3.
  destruct (Nat.ltb_spec p s); [lia|]. set (r := (p - s)%nat).
  assert (P <> []) as PNE by (intros E; rewrite E in HP; discriminate).
  assert (U <> []) as UNE by (intros E; rewrite E in HL; cbn in HL; lia).
  destruct (make_knots_unit P p U (nc_periodic c) HW PNE HS UNE) as (tm & Et & T_c & T_d & T_k & T_p & T_i & _).
  rewrite Et. cbn [bind].
  rewrite update_interval_sorted by (rewrite T_k; assumption). cbn [bind].
  set (tm2 := nc_set_interval tm _).
  destruct (insert_knot_ok tm2 n t r k) as (cps & kv & iv & E1 & Ekv & Eiv & Lc & G);
    try (unfold tm2; cbn [nc_set_interval nc_cps nc_knots nc_degree]; rewrite ?T_c, ?T_d, ?T_k; fold s; lia || assumption).
  assert (nc_knots tm2 = U) as K2 by exact T_k. assert (nc_cps tm2 = P) as C2 by exact T_c. assert (nc_degree tm2 = p) as P2 by exact T_d.
  rewrite K2, ?C2, ?P2 in *. rewrite E1. cbn [bind nc_set_interval nc_set_knots nc_set_cps nc_cps nc_knots].
  destruct (inserted_valid n p U k t r V Hk T1 T2) as (V' & Vp & Vn). rewrite <- Ekv in V', Vp, Vn.
  pose proof V' as (Hpn' & HL' & HS' & HN'). pose proof (sorted_mono kv HS') as M'.
  assert (forall i, knot kv i = insr (knot U) k t r i) as KV by (intros; rewrite Ekv; apply kv_knot; lia).
  destruct (insr_le (knot U) k t T1 T2 r) as [IL1 IL2]. rewrite <- !KV in IL1, IL2.
  rewrite Lc. rewrite (find_span_at (S n + r) p kv (k + r) t M') by (lia || assumption). cbn [bind].
  set (a := (k - s)%nat).
  assert (a + p = k + r)%nat as Hap by (unfold a, r; lia).
  assert (knot U a < t) as Hat.
  { unfold a. destruct (Nat.eq_dec s 0) as [E0|].
    - destruct (Qcle_lt_or_eq _ _ T1) as [L|E]; [rewrite E0, Nat.sub_0_r; exact L|].
      exfalso. assert (In t U) as It by (rewrite <- E, knot_nth by lia; apply nth_In; lia).
      unfold s, multiplicity in E0. assert (In t (filter (Qceqb t) U)) as F by (apply filter_In; split; [exact It|qcb; reflexivity]).
      destruct (filter (Qceqb t) U); [destruct F|discriminate].
    - apply S2. lia. }
  assert (p <= a)%nat as Hpa.
  { destruct (Nat.le_gt_cases p a); [assumption|]. exfalso. assert (knot U p = t) as E by (apply S3; unfold a in *; lia). rewrite E in D1. qc_lra. }
  assert (knot kv a < t) as Va by (rewrite KV, insr_lo by (unfold a; lia); assumption).
  assert (forall j, (a < j <= a + p)%nat -> knot kv j = t) as Vt.
  { intros j Hj. rewrite KV. destruct (Nat.le_gt_cases j k).
    - rewrite insr_lo by assumption. apply S3. unfold a in *; lia.
    - apply insr_mid. lia. }
  assert (t < knot kv (a + p + 1)) as Vb.
  { replace (a + p + 1)%nat with (S (k + r)) by lia. assumption. }
  (* the pieces *)
  replace 0%Z with (Z.of_nat 0) by reflexivity.
  rewrite sub_vec_ok by lia. cbn [bind]. rewrite sub_vec_ok by lia. cbn [bind].
  replace (Z.of_nat k - Z.of_nat p + 1 + Z.of_nat r)%Z with (Z.of_nat (S a)) by lia.
  replace (Z.of_nat (S a) - 1)%Z with (Z.of_nat a) by lia.
  rewrite sub_vec_ok by lia. cbn [bind]. rewrite sub_vec_ok by lia. cbn [bind]. cbn [skipn]. rewrite !Nat.sub_0_r.
  assert (firstn (k + r + 1) kv = firstn (k + 1) U ++ repeat t r) as F1.
  { rewrite Ekv, app_assoc. apply firstn_app_exact. rewrite app_length, firstn_length, repeat_length. lia. }
  assert (firstn (length kv - (k + r + 1)) (skipn (k + r + 1) kv) = skipn (k + 1) U) as F2.
  { rewrite firstn_all2 by (rewrite skipn_length; lia). rewrite Ekv, app_assoc. apply skipn_app_exact.
    rewrite app_length, firstn_length, repeat_length. lia. }
  rewrite F1, F2. rewrite (firstn_all2 (skipn a cps)) by (rewrite skipn_length; lia).
  set (kv1 := (firstn (k + 1) U ++ repeat t r) ++ [t]). set (kv2 := repeat t (p + 1) ++ skipn (k + 1) U).
  assert (length kv1 = (a + p + 2)%nat) as L1.
  { unfold kv1. rewrite !app_length, firstn_length, repeat_length. cbn [length]. lia. }
  assert (length kv2 = (n + r - a + p + 2)%nat) as L2.
  { unfold kv2. rewrite app_length, repeat_length, skipn_length. lia. }
  assert (forall i, knot kv1 i = left_knots (knot kv) a p t i) as KN1.
  { intros i. unfold left_knots. unfold knot at 1. unfold kv1 at 2. rewrite last_last.
    unfold kv1. rewrite <- F1. destruct (Nat.leb_spec i (a + p)).
    - rewrite app_nth1 by (rewrite firstn_length; lia). rewrite nth_firstn_lt by lia. rewrite knot_nth by lia. apply nth_indep. lia.
    - destruct (Nat.eq_dec i (a + p + 1)) as [->|].
      + rewrite app_nth2 by (rewrite firstn_length; lia). rewrite firstn_length.
        replace (a + p + 1 - Nat.min (k + r + 1) (length kv))%nat with 0%nat by lia. reflexivity.
      + apply nth_overflow. rewrite app_length, firstn_length. cbn [length]. lia. }
  assert (forall i, knot kv2 i = right_knots (knot kv) a p t i) as KN2.
  { intros i. unfold right_knots.
    assert (skipn (k + 1) U <> []) as SNE. { intros E. apply (f_equal (@length Qc)) in E. rewrite skipn_length in E. cbn in E. lia. }
    assert (last kv2 0 = last U 0) as EL.
    { destruct (exists_last SNE) as (l & x & Ex). unfold kv2. rewrite Ex, app_assoc, last_last.
      rewrite <- (firstn_skipn (k + 1) U), Ex, app_assoc, last_last. reflexivity. }
    unfold knot at 1. rewrite EL. unfold kv2. destruct (Nat.leb_spec i p).
    - rewrite app_nth1 by (rewrite repeat_length; lia). rewrite (nth_indep _ _ t) by (rewrite repeat_length; lia). apply nth_repeat.
    - rewrite app_nth2 by (rewrite repeat_length; lia). rewrite repeat_length, nth_skipn_add.
      rewrite KV. rewrite (insr_hi _ _ _ r (a + i) (k + 1 + (i - (p + 1)))) by lia. reflexivity. }
  assert (mono (left_knots (knot kv) a p t)) as LM by (apply (left_mono (knot kv) a p (n + r) t); try lia; assumption).
  assert (mono (right_knots (knot kv) a p t)) as RM by (apply (right_mono (knot kv) a p (n + r) t); try lia; assumption).
  assert (unit_weights cps) as UW.
  { eapply (unit_from_pq (knot U) k p t r n P cps); try assumption; try lia.
    intros i Hi. apply G; [assumption|right; right; right; reflexivity]. }
  destruct (make_knots_unit (firstn (S a) cps) p kv1 false) as (c1 & Ec1 & A1 & A2 & A3 & A4 & A5 & A6 & A7).
  { intros q Hq. apply UW. rewrite <- (firstn_skipn (S a) cps). apply in_or_app. left; assumption. }
  { intros E. apply (f_equal (@length vec4)) in E. rewrite firstn_length in E. cbn [length] in E. lia. }
  { apply mono_sorted. eapply mono_ext; [intros; symmetry; apply KN1|exact LM]. }
  { intros E. rewrite E in L1. cbn in L1. lia. }
  destruct (make_knots_unit (skipn a cps) p kv2 false) as (c2 & Ec2 & B1 & B2 & B3 & B4 & B5 & B6 & B7).
  { intros q Hq. apply UW. rewrite <- (firstn_skipn a cps). apply in_or_app. right; assumption. }
  { intros E. apply (f_equal (@length vec4)) in E. rewrite skipn_length in E. cbn [length] in E. lia. }
  { apply mono_sorted. eapply mono_ext; [intros; symmetry; apply KN2|exact RM]. }
  { intros E. rewrite E in L2. cbn in L2. lia. }
  rewrite Ec1. cbn [bind]. rewrite Ec2. cbn [bind].
  exists c1, c2. split; [reflexivity|].
  assert (forall u, knot U p <= u -> u <= knot U (n + 1) -> forall f, comp4 f ->
     qsum (fun i => basis_at kv (n + r) p u i * f (nth i cps d4)) (S (n + r)) =
     qsum (fun i => basis_at U n p u i * f (nth i P d4)) (S n)) as SUM.
  { intros u Hu1 Hu2 f Hf.
    pose proof (insert_knot_sums tm2 n t r k cps kv u f) as K. rewrite K2, C2, P2 in K. apply K; try assumption.
    - intros i Hi. apply G; assumption.
    - split; assumption. }
  assert (valid_knots a p kv1) as V1.
  { split; [assumption|]. split; [lia|]. split; [apply mono_sorted; eapply mono_ext; [intros; symmetry; apply KN1|exact LM]|].
    rewrite !KN1. unfold left_knots. destruct (Nat.leb_spec a (a + p)); [|lia]. destruct (Nat.leb_spec (a + 1) (a + p)); [|lia].
    rewrite (Vt (a + 1)%nat) by lia. assumption. }
  assert (valid_knots (n + r - a) p kv2) as V2.
  { split; [lia|]. split; [lia|]. split; [apply mono_sorted; eapply mono_ext; [intros; symmetry; apply KN2|exact RM]|].
    rewrite !KN2. unfold right_knots.
    destruct (Nat.leb_spec (n + r - a + 1) p); [lia|].
    replace (a + (n + r - a + 1))%nat with (n + r + 1)%nat by lia.
    destruct (Nat.leb_spec (n + r - a) p).
    - rewrite Vn. assumption.
    - replace (a + (n + r - a))%nat with (n + r)%nat by lia. assumption. }
  assert (forall u, in_domain n p U u -> exists s0, is_span (knot kv) (n + r) s0 u /\ u <= knot kv (S (n + r))) as SPN.
  { intros u (Hu1 & Hu2). destruct (find_span_spec (n + r) p kv u V') as (s0 & _ & _ & IS).
    - split; [rewrite Vp; assumption|rewrite Vn; assumption].
    - exists s0. split; [assumption|]. rewrite <- (Nat.add_1_r (n + r)), Vn. assumption. }
  assert (knot kv (n + r) < knot kv (S (n + r))) as HN''. { rewrite <- (Nat.add_1_r (n + r)). assumption. }
  split; [|split; [|split; [|split]]].
  - exists a. rewrite A1, A2, A3, A4. split; [rewrite firstn_length; lia|]. split; [assumption|]. split; [reflexivity|].
    split; [reflexivity|]. split; [exact A5|]. split.
    { intros q Hq. apply UW. rewrite <- (firstn_skipn (S a) cps). apply in_or_app. left; assumption. }
    assert (knot kv1 p = knot U p) as E0.
    { rewrite KN1. unfold left_knots. fold p. destruct (Nat.leb_spec p (a + p)); [|lia]. assumption. }
    assert (knot kv1 (a + 1) = t) as E2.
    { rewrite KN1. unfold left_knots. destruct (Nat.leb_spec (a + 1) (a + p)); [|lia]. apply Vt. lia. }
    split; [exact E0|]. split; [exact E2|]. split; [exact A6|].
    intros u Hu1 Hu2.
    assert (in_domain n p U u) as DU by (split; [assumption|fold U p in Hu2; qc_lra]).
    destruct (SPN u DU) as (s0 & IS & ISu).
    assert (forall f, comp4 f -> qsum (fun i => basis_at kv1 a p u i * f (nth i (firstn (S a) cps) d4)) (S a) =
      qsum (fun i => basis_at U n p u i * f (nth i P d4)) (S n)) as K.
    { intros f Hf. destruct DU as [DU1 DU2]. rewrite <- (SUM u DU1 DU2 f Hf).
      destruct (left_sum (knot kv) a p (n + r) t M' ltac:(lia) ltac:(lia) Vt Va Vb u (fun i => f (nth i cps d4)) s0 IS ISu HN'' Hu2 Hpa) as (s1 & IS1 & _ & E3).
      rewrite (qsum_ext (fun i => basis_at kv (n + r) p u i * f (nth i cps d4)) (fun i => bsp (knot kv) s0 p i u * f (nth i cps d4))).
      2:{ intros i _. rewrite (basis_at_bsp (n + r) p kv u s0); [reflexivity|assumption| |assumption]. split; [rewrite Vp|rewrite Vn]; assumption. }
      rewrite <- E3. apply qsum_ext. intros i Hi. rewrite nth_firstn_lt by assumption. f_equal.
      rewrite (basis_at_bsp a p kv1 u s1).
      - apply bsp_ext. exact KN1.
      - assumption.
      - split; [rewrite E0; assumption|rewrite E2; assumption].
      - eapply is_span_ext; [intros; symmetry; apply KN1|exact IS1]. }
    unfold poly_point. fold U p P. rewrite !K by (unfold comp4; auto). reflexivity.
  - exists (n + r - a)%nat. rewrite B1, B2, B3, B4. split; [rewrite skipn_length; lia|]. split; [assumption|]. split; [reflexivity|].
    split; [reflexivity|]. split; [exact B5|]. split.
    { intros q Hq. apply UW. rewrite <- (firstn_skipn a cps). apply in_or_app. right; assumption. }
    assert (knot kv2 p = t) as E0.
    { rewrite KN2. unfold right_knots. destruct (Nat.leb_spec p p); [reflexivity|lia]. }
    assert (knot kv2 (n + r - a + 1) = knot U (n + 1)) as E2.
    { rewrite KN2. unfold right_knots. destruct (Nat.leb_spec (n + r - a + 1) p); [lia|].
      replace (a + (n + r - a + 1))%nat with (n + r + 1)%nat by lia. assumption. }
    split; [exact E0|]. split; [exact E2|]. split; [exact B6|].
    intros u Hu1 Hu2.
    assert (in_domain n p U u) as DU by (split; [qc_lra|assumption]).
    destruct (SPN u DU) as (s0 & IS & ISu).
    assert (forall f, comp4 f -> qsum (fun i => basis_at kv2 (n + r - a) p u i * f (nth i (skipn a cps) d4)) (S (n + r - a)) =
      qsum (fun i => basis_at U n p u i * f (nth i P d4)) (S n)) as K.
    { intros f Hf. destruct DU as [DU1 DU2]. rewrite <- (SUM u DU1 DU2 f Hf).
      destruct (right_sum (knot kv) a p (n + r) t M' ltac:(lia) ltac:(lia) Vt Vb u (fun i => f (nth i cps d4)) s0 IS ISu HN'' Hu1) as (s1 & IS1 & _ & E3).
      rewrite (qsum_ext (fun i => basis_at kv (n + r) p u i * f (nth i cps d4)) (fun i => bsp (knot kv) s0 p i u * f (nth i cps d4))).
      2:{ intros i _. rewrite (basis_at_bsp (n + r) p kv u s0); [reflexivity|assumption| |assumption]. split; [rewrite Vp|rewrite Vn]; assumption. }
      rewrite <- E3. apply qsum_ext. intros i Hi. rewrite nth_skipn_add. f_equal.
      rewrite (basis_at_bsp (n + r - a) p kv2 u s1).
      - apply bsp_ext. exact KN2.
      - assumption.
      - split; [rewrite E0; assumption|rewrite E2; assumption].
      - eapply is_span_ext; [intros; symmetry; apply KN2|exact IS1]. }
    unfold poly_point. fold U p P. rewrite !K by (unfold comp4; auto). reflexivity.
  - rewrite A3. unfold kv1. rewrite <- app_assoc. reflexivity.
  - exact B3.
  - exists cps. split; [exact Lc|]. split; [exact G|]. split; [exact A1|]. split; [exact B1|]. rewrite A1, B1. split; [exact A7|exact B7].
Qed.
