(** The NURBS curve theorems in the form they are stated. *)
From Coq Require Import List ZArith QArith Qcanon Lia Bool Permutation Sorted.
From Verif Require Import Base BaseFacts ModelVec ModelAabb ModelNurbs SpecAabb SpecNurbs SpecCurve LoopFacts
  ProofBspline ProofNurbs ProofInsertion ProofInsertCurve ProofInsertKnot ProofCurve ProofSplit ProofNurbsMisc.
Import ListNotations.
Open Scope Qc_scope.

(** ** find_span and basis_funs *)
Lemma find_span_top n p U u : valid_knots n p U -> in_domain n p U u ->
  exists s, find_span n p u U = Ok s /\ (p <= s <= n)%nat /\ knot U s <= u /\
    (u < knot U (s + 1) \/ (s = n /\ u = knot U (n + 1))).
Proof.
  intros V D. destruct (find_span_spec n p U u V D) as (s & E & Hs & (H1 & H2 & H3)).
  exists s. split; [exact E|]. split; [lia|]. split; [exact H2|]. rewrite (Nat.add_1_r s). destruct H3 as [|[-> H]]; [auto|].
  right. split; [reflexivity|]. rewrite Nat.add_1_r. exact H.
Qed.

Lemma nth_seq_map_eq (N : list Qc) k (g : nat -> Qc) : length N = k -> (forall r, (r < k)%nat -> nth r N 0 = g r) ->
  N = map g (seq 0 k).
Proof.
  intros L H. apply (nth_ext _ _ 0 0); [rewrite map_length, seq_length; exact L|].
  intros r Hr. rewrite H by lia. rewrite (nth_indep (map g (seq 0 k)) 0 (g 0%nat)) by (rewrite map_length, seq_length; lia). rewrite map_nth. rewrite seq_nth by lia. reflexivity.
Qed.

Lemma basis_funs_top n p U u s N0 : valid_knots n p U -> in_domain n p U u -> (p <= 8)%nat -> length N0 = 9%nat ->
  find_span n p u U = Ok s ->
  exists N, basis_funs s u p U N0 = Ok N /\
    firstn (p + 1) N = map (fun r => basis_at U n p u (s - p + r)) (seq 0 (p + 1)) /\
    skipn (p + 1) N = skipn (p + 1) N0 /\
    (forall r, (r <= p)%nat -> 0 <= nth r N 0) /\
    qsum (fun r => nth r N 0) (p + 1) = 1 /\
    (forall i, (i < s - p)%nat \/ (s < i)%nat -> (i <= n)%nat -> basis_at U n p u i = 0).
Proof.
  intros V D Hp L0 E. destruct (find_span_spec n p U u V D) as (s' & E' & Hs & IS). rewrite E in E'. injection E' as <-.
  pose proof (valid_span_ok _ _ _ _ _ V IS) as SO. pose proof V as (Hn & HL & HS & HN). pose proof IS as (Hsn & _).
  destruct (basis_funs_spec U u s p N0) as (N & E2 & L2 & G2 & G3);
    [apply sorted_mono; assumption|assumption|assumption|lia|lia|assumption|].
  exists N. split; [exact E2|].
  assert (forall r, (r <= p)%nat -> nth r N 0 = basis_at U n p u (s - p + r)) as G.
  { intros r Hr. rewrite G2 by lia. rewrite (basis_at_bsp n p U u s) by assumption. reflexivity. }
  split; [|split; [|split; [|split]]].
  - apply nth_seq_map_eq; [rewrite firstn_length; lia|]. intros r Hr. rewrite nth_firstn_lt by lia. apply G. lia.
  - apply (nth_ext _ _ 0 0); [rewrite !skipn_length; lia|]. intros r Hr. rewrite skipn_length in Hr.
    rewrite !nth_skipn_add. apply G3. lia.
  - intros r Hr. rewrite G by assumption. apply basis_at_nonneg; assumption.
  - rewrite <- (partition_all n p U u V D).
    rewrite (qsum_ext (basis_at U n p u) (fun i => bsp (knot U) s p i u * 1)).
    2:{ intros i _. rewrite (basis_at_bsp n p U u s) by assumption. ring. }
    rewrite (bsp_sum_support (knot U) s p u (fun _ => 1)) by lia. rewrite (Nat.add_1_r p).
    apply qsum_ext. intros r Hr. rewrite G2 by lia. ring.
  - intros i Hi Hin. rewrite (basis_at_bsp n p U u s) by assumption.
    destruct Hi as [Hi|Hi]; [apply bsp_left; lia|apply bsp_right; lia].
Qed.

(** ** degrees beyond the buffers *)
Lemma for_up_app {S} (body : nat -> S -> res S) a : forall b start s,
  for_up (a + b) start body s = (s' <- for_up a start body s ;; for_up b (start + a) body s').
Proof.
  induction a; intros b start s; cbn [for_up Nat.add bind].
  - rewrite Nat.add_0_r. reflexivity.
  - destruct (body start s); cbn [bind]; [|reflexivity|reflexivity]. rewrite IHa.
    replace (start + Datatypes.S a)%nat with (Datatypes.S start + a)%nat by lia. reflexivity.
Qed.

Lemma for_up_ok_inv {S} (P : S -> Prop) (body : nat -> S -> res S) : (forall i s s', P s -> body i s = Ok s' -> P s') ->
  forall count start s s', P s -> for_up count start body s = Ok s' -> P s'.
Proof.
  intros H. induction count; intros start s s' HP; cbn [for_up].
  - intros E. injection E as <-. exact HP.
  - destruct (body start s) as [s1| |] eqn:E1; cbn [bind]; try discriminate. apply IHcount. eapply H; eassumption.
Qed.

Lemma set_nth_length {A} (l l' : list A) : forall i x, set_nth l i x = Ok l' -> length l' = length l.
Proof.
  revert l'. induction l as [|a l IH]; intros l' i x; cbn [set_nth]; [discriminate|].
  destruct i; [intros E; injection E as <-; reflexivity|].
  destruct (set_nth l i x) eqn:E; cbn [bind]; try discriminate. intros F. injection F as <-. cbn. f_equal. eapply IH. exact E.
Qed.
Lemma set_nth_over {A} (l : list A) : forall i x, (length l <= i)%nat -> set_nth l i x = UB.
Proof.
  induction l as [|a l IH]; intros i x H; [reflexivity|]. destruct i; [cbn in H; lia|]. cbn [set_nth].
  rewrite IH by (cbn in H; lia). reflexivity.
Qed.

Lemma basis_outer_length i u U j st st' :
  (let '(_, lft, _) := st in length lft = 9%nat) -> basis_outer i u U j st = Ok st' -> let '(_, lft, _) := st' in length lft = 9%nat.
Proof.
  destruct st as [[N lft] rgt]. unfold basis_outer. intros H.
  destruct (getZ U _); cbn [bind]; try discriminate.
  destruct (set_nth lft j _) eqn:E; cbn [bind]; try discriminate. apply set_nth_length in E.
  destruct (get U _); cbn [bind]; try discriminate.
  destruct (set_nth rgt j _); cbn [bind]; try discriminate.
  destruct (for_up _ _ _ _) as [[N1 sv]| |]; cbn [bind]; try discriminate.
  destruct (set_nth N1 j sv); cbn [bind]; try discriminate.
  intros F. injection F as <-. lia.
Qed.

Lemma high_degree n p U P u : valid_knots n p U -> in_domain n p U u -> (9 <= p)%nat -> curve_point n p U P u = UB.
Proof.
  intros V D H9. unfold curve_point.
  destruct (find_span_spec n p U u V D) as (s & E & Hs & IS). rewrite E. cbn [bind].
  pose proof (valid_span_ok _ _ _ _ _ V IS) as SO. pose proof V as (Hn & HL & HS & HN). pose proof IS as (Hsn & _).
  destruct (basis_funs_spec U u s 8 zeros) as (N & E2 & _);
    [apply sorted_mono; assumption|assumption|lia|lia|lia|reflexivity|].
  enough (basis_funs s u p U zeros = UB) as -> by reflexivity.
  unfold basis_funs in *. destruct (set_nth zeros 0 1) as [N1| |]; cbn [bind] in *; try discriminate.
  replace p with (8 + S (p - 9))%nat by lia. rewrite for_up_app.
  destruct (for_up 8 1 (basis_outer s u U) (N1, zeros, zeros)) as [st| |] eqn:E3; cbn [bind] in *; try discriminate.
  pose proof (for_up_ok_inv (fun st : list Qc * list Qc * list Qc => let '(_, lft, _) := st in length lft = 9%nat) (basis_outer s u U) (basis_outer_length s u U) 8 1 (N1, zeros, zeros) st eq_refl E3) as K.
  destruct st as [[N2 lft] rgt]. cbn [for_up]. unfold basis_outer at 1.
  destruct (getZ U _) eqn:EG; cbn [bind].
  - rewrite set_nth_over by (rewrite K; lia). reflexivity.
  - exfalso. revert EG. unfold getZ, get. destruct (_ <? 0)%Z; [discriminate|]. destruct (nth_error _ _); discriminate.
  - reflexivity.
Qed.

Lemma evaluate_high c n u : length (nc_cps c) = S n -> valid_knots n (nc_degree c) (nc_knots c) -> (9 <= nc_degree c)%nat ->
  in_curve c n u -> evaluate c u = UB.
Proof. intros L V H D. unfold evaluate. rewrite L. apply high_degree; assumption. Qed.

(** ** evaluation *)
Lemma evaluate_top c n u : good_curve c n -> in_curve c n u -> positive_weights (nc_cps c) ->
  evaluate c u = Ok (rational_point (nc_knots c) n (nc_degree c) (nc_cps c) u) /\
  0 < weight_at (nc_knots c) n (nc_degree c) (nc_cps c) u.
Proof.
  intros (L & V & H8) D W. split; [apply evaluate_positive; assumption|apply weight_pos; assumption].
Qed.

Lemma hull_top c n u : good_curve c n -> in_curve c n u -> positive_weights (nc_cps c) ->
  exists pt, evaluate c u = Ok pt /\ in_hull_of_run (nc_degree c) (nc_cps c) pt /\
    forall b, (forall q, In q (nc_cps c) -> inside b (xyz q)) -> inside b pt.
Proof.
  intros (L & V & H8) D W. eexists. split; [apply evaluate_positive; eassumption|]. split.
  - apply hull_run; assumption.
  - intros [a b] H. apply hull_box; assumption.
Qed.

Lemma box_knots_top cps p kv per n : good_curve (NC cps p kv per [] (0, 1) aabb_default) n -> unit_weights cps ->
  exists c, nc_make_knots cps p kv per = Ok c /\ nc_cps c = cps /\ nc_degree c = p /\ nc_knots c = kv /\
    nc_periodic c = per /\ interval_current c /\
    (forall u, in_curve c n u -> exists pt, evaluate c u = Ok pt /\ inside (nc_aabb c) pt) /\
    (forall b', (forall q, In q cps -> inside b' (xyz q)) -> subbox (nc_aabb c) b').
Proof.
  intros (L & V & H8) W. cbn [nc_cps nc_degree nc_knots] in *. pose proof V as (Hn & HL & HS & HN).
  destruct (make_knots_unit cps p kv per) as (c & E & A1 & A2 & A3 & A4 & A5 & A6 & A7); try assumption.
  { intros F. rewrite F in L. discriminate. }
  { intros F. rewrite F in HL. cbn in HL. lia. }
  exists c. split; [exact E|]. do 4 (split; [assumption|]). split; [unfold interval_current; rewrite A3; exact A5|]. split; [|exact A7].
  intros u D. destruct (hull_top c n u) as (pt & E1 & _ & B1).
  - unfold good_curve. rewrite A1, A2, A3. auto.
  - exact D.
  - rewrite A1. apply unit_positive. assumption.
  - exists pt. split; [exact E1|]. apply B1. rewrite A1. exact A6.
Qed.

Lemma make3_top pts p : (p < length pts)%nat -> (p <= 8)%nat ->
  exists c n, nc_make3 pts p false = Ok c /\ length pts = S n /\ good_curve c n /\
    nc_cps c = map v4of3 pts /\ nc_degree c = p /\ unit_weights (nc_cps c) /\ nc_periodic c = false /\
    clamped n p (nc_knots c) /\ nc_interval c = (0, Qc_of_nat (length pts - p)) /\ interval_current c /\
    knot (nc_knots c) p = 0 /\ knot (nc_knots c) (n + 1) = Qc_of_nat (length pts - p) /\
    knot (nc_knots c) p < knot (nc_knots c) (p + 1) /\
    (forall i, (p <= i)%nat -> (i <= n + 1)%nat -> knot (nc_knots c) i = Qc_of_nat (i - p)) /\
    (forall q, In q (nc_cps c) -> inside (nc_aabb c) (xyz q)) /\
    (forall b', (forall q, In q (nc_cps c) -> inside b' (xyz q)) -> subbox (nc_aabb c) b').
Proof.
  intros H H8. destruct (make_unit pts p H) as (c & n & U & E & L & G & A1 & A2 & A3 & A4 & A5 & A6 & A7).
  destruct (gen_knots_spec n p ltac:(lia)) as (U' & G' & V & C & K1 & K2 & K3 & K4). rewrite G in G'. injection G' as <-.
  exists c, n. split; [exact E|]. split; [exact L|]. split.
  { unfold good_curve. rewrite A1, A2, A3, map_length. auto. }
  split; [exact A1|]. split; [exact A2|]. split.
  { intros q Hq. rewrite A1 in Hq. apply in_map_iff in Hq. destruct Hq as (x & <- & _). reflexivity. }
  rewrite A3. split; [exact A4|]. split; [exact C|]. split; [exact A5|]. split.
  { unfold interval_current. rewrite A3, A5. destruct C as [C1 C2]. destruct V as (V1 & V2 & V3 & V4). f_equal.
    - rewrite <- K2. apply C1. lia.
    - rewrite (C2 (length U - 1)%nat) by lia. rewrite K3, L. reflexivity. }
  rewrite L. split; [exact K2|]. split; [exact K3|]. auto.
Qed.

Lemma knots_top pts p : (p < length pts)%nat ->
  exists c n, nc_make3 pts p false = Ok c /\ length pts = S n /\ valid_knots n p (nc_knots c) /\
    clamped n p (nc_knots c) /\ length (nc_knots c) = (length pts + p + 1)%nat /\
    nc_interval c = (0, Qc_of_nat (length pts - p)) /\
    knot (nc_knots c) p = 0 /\ knot (nc_knots c) (n + 1) = Qc_of_nat (length pts - p) /\
    (forall i, (p <= i)%nat -> (i <= n + 1)%nat -> knot (nc_knots c) i = Qc_of_nat (i - p)).
Proof.
  intros H. destruct (make_unit pts p H) as (c & n & U & E & L & G & A1 & A2 & A3 & A4 & A5 & A6 & A7).
  destruct (gen_knots_spec n p ltac:(lia)) as (U' & G' & V & C & K1 & K2 & K3 & K4). rewrite G in G'. injection G' as <-.
  exists c, n. rewrite A3. split; [exact E|]. split; [exact L|]. split; [exact V|]. split; [exact C|].
  split; [destruct V as (_ & V2 & _); lia|]. split; [exact A5|]. split; [exact K2|]. split; [rewrite L; exact K3|]. exact K4.
Qed.

Lemma ends_top pts p : (p < length pts)%nat -> (p <= 8)%nat ->
  exists c a b, nc_make3 pts p false = Ok c /\ nc_interval c = (a, b) /\
    evaluate c a = Ok (nth 0 pts (V3 0 0 0)) /\ evaluate c b = Ok (nth (length pts - 1) pts (V3 0 0 0)).
Proof.
  intros H H8. destruct (make3_top pts p H H8) as (c & n & E & L & GC & A1 & A2 & UW & A4 & C & A5 & A5' & K2 & K3 & K1 & _).
  exists c, 0, (Qc_of_nat (length pts - p)). split; [exact E|]. split; [exact A5|].
  pose proof GC as (HP & V & _). rewrite A2 in V.
  assert (forall k, (k < S n)%nat -> xyz (nth k (nc_cps c) d4) = nth k pts (V3 0 0 0)) as X.
  { intros k Hk. rewrite A1. rewrite (nth_indep _ d4 (v4of3 (V3 0 0 0))) by (rewrite map_length; lia).
    rewrite map_nth. destruct (nth k pts (V3 0 0 0)); reflexivity. }
  destruct (curve_ends n p (nc_knots c) (nc_cps c) V C K1 HP (unit_positive _ UW)) as [F1 F2].
  rewrite K2 in F1. rewrite K3 in F2.
  assert (knot (nc_knots c) p <= knot (nc_knots c) (n + 1)) as LE.
  { destruct V as (V1 & V2 & V3 & V4). apply sorted_mono; [assumption|lia]. }
  split; (rewrite (evaluate_positive c n); [|assumption|rewrite A2; assumption|rewrite A2; assumption| |apply unit_positive; assumption]).
  - rewrite A2, F1. f_equal. apply X. lia.
  - rewrite A2. rewrite <- K2. split; [apply Qcle_refl|assumption].
  - rewrite A2, F2. f_equal. replace (length pts - 1)%nat with n by lia. apply X. lia.
  - rewrite A2. rewrite <- K3. split; [assumption|apply Qcle_refl].
Qed.

(** any positive weights, any clamped knot vector *)
Lemma ends_clamped c n : good_curve c n -> clamped n (nc_degree c) (nc_knots c) ->
  knot (nc_knots c) (nc_degree c) < knot (nc_knots c) (nc_degree c + 1) -> positive_weights (nc_cps c) ->
  evaluate c (knot (nc_knots c) (nc_degree c)) = Ok (xyz (nth 0 (nc_cps c) d4)) /\
  evaluate c (knot (nc_knots c) (n + 1)) = Ok (xyz (nth n (nc_cps c) d4)).
Proof.
  intros (HP & V & H8) C K1 W. destruct (curve_ends n _ _ _ V C K1 HP W) as [F1 F2].
  assert (knot (nc_knots c) (nc_degree c) <= knot (nc_knots c) (n + 1)) as LE.
  { destruct V as (V1 & V2 & V3 & V4). apply sorted_mono; [assumption|lia]. }
  split; (rewrite (evaluate_positive c n); try assumption).
  - rewrite F1. reflexivity.
  - split; [apply Qcle_refl|assumption].
  - rewrite F2. reflexivity.
  - split; [assumption|apply Qcle_refl].
Qed.

(** ** insertion *)
Lemma insert_top c n t r : good_curve c n -> knot (nc_knots c) (nc_degree c) <= t -> t < knot (nc_knots c) (n + 1) ->
  separated (nc_knots c) t -> (r + multiplicity (nc_knots c) t <= nc_degree c)%nat ->
  exists c', insert_knot c t r = Ok c' /\ good_curve c' (n + r) /\ nc_degree c' = nc_degree c /\
    Permutation (nc_knots c') (repeat t r ++ nc_knots c) /\ sorted (nc_knots c') /\
    length (nc_cps c') = (length (nc_cps c) + r)%nat /\
    nc_periodic c' = nc_periodic c /\ nc_aabb c' = nc_aabb c /\ interval_current c' /\
    (forall u, in_curve c' (n + r) u <-> in_curve c n u) /\
    (unit_weights (nc_cps c) -> unit_weights (nc_cps c') /\
     forall u, in_curve c n u -> exists pt, evaluate c u = Ok pt /\ evaluate c' u = Ok pt).
Proof.
  intros (L & V & H8) T1 T2 SEP Hr. destruct (domain_span n _ _ t V T1 T2) as (k & Hk & K1 & K2).
  destruct (insert_knot_ok c n t r k) as (cps & kv & iv & E & Ekv & Eiv & Lc & G); try assumption.
  destruct (inserted_valid n (nc_degree c) (nc_knots c) k t r V Hk K1 K2) as (V' & Vp & Vn). rewrite <- Ekv in V', Vp, Vn.
  eexists. split; [exact E|]. unfold good_curve, in_curve, in_domain, interval_current.
  cbn [nc_set_interval nc_set_knots nc_set_cps nc_cps nc_degree nc_knots nc_periodic nc_interval nc_aabb].
  split; [split; [lia|split; assumption]|]. split; [reflexivity|]. split.
  { rewrite Ekv. rewrite <- (firstn_skipn (k + 1) (nc_knots c)) at 3. rewrite Permutation_app_swap_app. reflexivity. }
  pose proof V' as (V1' & V2' & V3' & V4'). pose proof V as (V1 & V2 & V3 & V4). split; [exact V3'|]. split; [lia|]. split; [reflexivity|]. split; [reflexivity|]. split.
  { rewrite Eiv. pose proof (sorted_mono _ V3) as M. f_equal.
    - rewrite Ekv. rewrite kv_knot by lia. rewrite insr_lo by lia. reflexivity.
    - rewrite Ekv at 1. rewrite kv_knot by lia. symmetry. rewrite V2', V2. apply insr_hi; lia. }
  split; [rewrite Vp, Vn; tauto|].
  intros UW.
  assert (unit_weights cps) as UW'.
  { eapply unit_from_pq with (P := nc_cps c) (n := n) (r := r) (k := k); [exact UW|exact L|exact Lc|lia|].
    intros i Hi. apply G; [lia|]. unfold comp4. auto. }
  split; [exact UW'|]. intros u D.
  exists (poly_point (nc_knots c) n (nc_degree c) (nc_cps c) u). split.
  - rewrite (evaluate_positive c n) by (auto using unit_positive). f_equal. apply unit_rational; assumption.
  - rewrite (evaluate_positive _ (n + r)); cbn [nc_set_interval nc_set_knots nc_set_cps nc_cps nc_degree nc_knots]; try assumption.
    + f_equal. rewrite unit_rational; try assumption.
      * unfold poly_point. f_equal; (eapply insert_knot_sums; try eassumption; intros i Hi; apply G; [assumption|unfold comp4; auto]).
      * destruct D as [D1 D2]. split; [rewrite Vp|rewrite Vn]; assumption.
    + destruct D as [D1 D2]. split; [rewrite Vp|rewrite Vn]; assumption.
    + apply unit_positive. assumption.
Qed.

(** ** split *)
Lemma split_throws c t normalize : t <= fst (nc_interval c) \/ snd (nc_interval c) <= t -> nc_split c t normalize = Throw EInvalidArgument.
Proof.
  intros H. unfold nc_split. destruct (nc_interval c) as [a b]. cbn [fst snd] in H.
  assert ((t <=? a) || (b <=? t) = true) as E by (apply orb_true_iff; destruct H; [left|right]; qcb; assumption).
  rewrite E. reflexivity.
Qed.

Lemma part_traces c part n lo hi : good_curve c n -> unit_weights (nc_cps c) -> knot (nc_knots c) (nc_degree c) <= lo -> hi <= knot (nc_knots c) (n + 1) ->
  part_of c part n lo hi -> traces part c lo hi.
Proof.
  intros (L & V & H8) UW H1 H2 (m & A1 & A2 & A3 & A4 & A5 & A6 & A7 & A8 & A9 & A10).
  exists m. split; [unfold good_curve; rewrite A3; auto|]. split; [exact A3|]. split; [exact A6|]. split; [exact A5|].
  split; [exact A7|]. split; [exact A8|]. intros u U1 U2.
  assert (in_domain n (nc_degree c) (nc_knots c) u) as D by (split; eapply Qcle_trans; eassumption).
  assert (in_domain m (nc_degree part) (nc_knots part) u) as D' by (rewrite A3; split; [rewrite A7|rewrite A8]; assumption).
  exists (poly_point (nc_knots c) n (nc_degree c) (nc_cps c) u).
  assert (evaluate part u = Ok (poly_point (nc_knots c) n (nc_degree c) (nc_cps c) u)) as E.
  { rewrite (evaluate_positive part m); try assumption; [|rewrite A3; assumption|lia|apply unit_positive; assumption].
    f_equal. rewrite A3. rewrite A3 in D'. rewrite unit_rational by assumption. apply A10; assumption. }
  split; [exact E|]. split.
  - rewrite (evaluate_positive c n) by (auto using unit_positive). f_equal. apply unit_rational; assumption.
  - destruct (hull_top part m u) as (pt & E1 & _ & B).
    + unfold good_curve. rewrite A3. auto.
    + exact D'.
    + apply unit_positive; assumption.
    + rewrite E in E1. injection E1 as <-. apply B. exact A9.
Qed.

Lemma split_top c n t : good_curve c n -> (1 <= nc_degree c)%nat -> unit_weights (nc_cps c) -> interval_current c ->
  knot (nc_knots c) (nc_degree c) < t -> t < knot (nc_knots c) (n + 1) ->
  separated (nc_knots c) t -> (multiplicity (nc_knots c) t <= nc_degree c)%nat ->
  exists c1 c2, nc_split c t false = Ok (c1, c2) /\
    traces c1 c (knot (nc_knots c) (nc_degree c)) t /\ traces c2 c t (knot (nc_knots c) (n + 1)).
Proof.
  intros GC H1 UW HI T1 T2 SEP Hm. pose proof GC as (L & V & H8).
  destruct (domain_span n _ _ t V (Qclt_le_weak _ _ T1) T2) as (k & Hk & K1 & K2).
  destruct (split_ok c n t k) as (c1 & c2 & E & P1 & P2 & _); try assumption; [lia|].
  exists c1, c2. split; [exact E|]. split; eapply part_traces; try eassumption; try apply Qcle_refl; apply Qclt_le_weak; assumption.
Qed.

(** with any weights, insertion preserves the four sums over the basis: it
    treats (x, y, z, w) as homogeneous *)
Lemma insert_homogeneous c n t r : good_curve c n -> knot (nc_knots c) (nc_degree c) <= t -> t < knot (nc_knots c) (n + 1) ->
  separated (nc_knots c) t -> (r + multiplicity (nc_knots c) t <= nc_degree c)%nat ->
  exists c', insert_knot c t r = Ok c' /\ nc_degree c' = nc_degree c /\
    forall f, f = wx \/ f = wy \/ f = wz \/ f = ww -> forall u, in_curve c n u ->
    qsum (fun i => basis_at (nc_knots c') (n + r) (nc_degree c) u i * f (nth i (nc_cps c') (V4 0 0 0 0))) (S (n + r)) =
    qsum (fun i => basis_at (nc_knots c) n (nc_degree c) u i * f (nth i (nc_cps c) (V4 0 0 0 0))) (S n).
Proof.
  intros (L & V & H8) T1 T2 SEP Hr. destruct (domain_span n _ _ t V T1 T2) as (k & Hk & K1 & K2).
  destruct (insert_knot_ok c n t r k) as (cps & kv & iv & E & Ekv & Eiv & Lc & G); try assumption.
  eexists. split; [exact E|]. split; [reflexivity|]. intros f Hf u D.
  cbn [nc_set_interval nc_set_knots nc_set_cps nc_cps nc_knots]. fold d4.
  eapply insert_knot_sums; try eassumption. intros i Hi. apply G; [assumption|].
  unfold comp4. destruct Hf as [-> | [-> | [-> | ->]]]; auto.
Qed.

(** control points replaced by as many others *)
Lemma set_points_top c n cpts u : good_curve c n -> length cpts = S n -> positive_weights cpts -> in_curve c n u ->
  exists c', nc_set_control_points c cpts = Ok c' /\ nc_knots c' = nc_knots c /\ nc_degree c' = nc_degree c /\
    evaluate c' u = Ok (rational_point (nc_knots c) n (nc_degree c) cpts u).
Proof.
  intros (L & V & H8) L' W D. unfold nc_set_control_points. rewrite L, L', Nat.eqb_refl. cbn [negb].
  eexists. split; [reflexivity|]. split; [reflexivity|]. split; [reflexivity|].
  apply (evaluate_positive (nc_set_cps c cpts) n u); assumption.
Qed.
