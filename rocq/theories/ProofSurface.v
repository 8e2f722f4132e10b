(** Evaluation of surfaces, and knot insertion. *)
From Coq Require Import List ZArith QArith Qcanon Bool Lia Lqa Field.
From Verif Require Import Base BaseFacts LoopFacts ModelVec ModelAabb SpecAabb ProofAabb ModelNurbs ModelSurface SpecNurbs SpecSurface ProofBspline ProofInsertion ProofNurbs ProofInsertCurve ProofInsertKnot ProofCurve ProofSplit ProofSurfaceSums.
Import ListNotations.
Open Scope Qc_scope.

(** ** lists *)
Lemma mapM_map {A B} (f : A -> res B) (g : A -> B) l : (forall x, In x l -> f x = Ok (g x)) -> mapM f l = Ok (map g l).
Proof.
  induction l as [|a l IH]; intros H; [reflexivity|]. cbn [mapM map]. rewrite H by (left; reflexivity). cbn [bind].
  rewrite IH by (intros; apply H; right; assumption). reflexivity.
Qed.
Lemma mapM_ex {A B} (f : A -> res B) (R : A -> B -> Prop) l : (forall x, In x l -> exists y, f x = Ok y /\ R x y) ->
  exists ys, mapM f l = Ok ys /\ Forall2 R l ys.
Proof.
  induction l as [|a l IH]; intros H.
  - exists []. split; [reflexivity|constructor].
  - destruct (H a) as (y & E & Ry); [left; reflexivity|]. destruct IH as (ys & Es & F); [intros; apply H; right; assumption|].
    exists (y :: ys). cbn [mapM]. rewrite E. cbn [bind]. rewrite Es. split; [reflexivity|constructor; assumption].
Qed.
Lemma Forall2_nth {A B} (R : A -> B -> Prop) l l' : Forall2 R l l' -> forall i d d', (i < length l)%nat -> R (nth i l d) (nth i l' d').
Proof.
  induction 1 as [|x y l l' r F IH]; intros i d d' Hi; [cbn in Hi; lia|].
  destruct i; cbn [nth]; [assumption|]. apply IH. cbn in Hi. lia.
Qed.
Lemma nth_map_seq {A} (g : nat -> A) n i d : (i < n)%nat -> nth i (map g (seq 0 n)) d = g i.
Proof.
  intros H. rewrite (nth_indep _ d (g 0%nat)) by (rewrite map_length, seq_length; lia).
  rewrite map_nth. rewrite seq_nth by lia. reflexivity.
Qed.

Lemma qsum_swap (f : nat -> nat -> Qc) a b : qsum (fun i => qsum (fun j => f i j) b) a = qsum (fun j => qsum (fun i => f i j) a) b.
Proof.
  induction a; cbn [qsum].
  - symmetry. apply qsum_zero. reflexivity.
  - rewrite IHa. rewrite <- qsum_add. reflexivity.
Qed.

Lemma vec4_ext (a b : vec4) : (forall c, comp4 c -> c a = c b) -> a = b.
Proof.
  intros H. pose proof (H wx ltac:(unfold comp4; auto)) as H1. pose proof (H wy ltac:(unfold comp4; auto)) as H2.
  pose proof (H wz ltac:(unfold comp4; auto)) as H3. pose proof (H ww ltac:(unfold comp4; auto)) as H4.
  destruct a, b. cbn in *. congruence.
Qed.

(** ** control points *)
Lemma good_rows s n m i : good_surf s n m -> (i < S n)%nat -> length (nth i (ns_cps s) []) = S m.
Proof. intros (H1 & H2 & _) Hi. apply H2. apply nth_In. lia. Qed.

Lemma get2_ok (P : list (list vec4)) i j : (0 <= i)%Z -> (0 <= j)%Z -> (Z.to_nat i < length P)%nat ->
  (Z.to_nat j < length (nth (Z.to_nat i) P []))%nat -> get2 P i j = Ok (cp P (Z.to_nat i) (Z.to_nat j)).
Proof.
  intros A B C D. unfold get2. rewrite (getZ_ok _ _ []) by assumption. cbn [bind].
  rewrite (getZ_ok _ _ d4) by assumption. reflexivity.
Qed.
Lemma get2_nat P i j : (i < length P)%nat -> (j < length (nth i P []))%nat -> get2 P (Z.of_nat i) (Z.of_nat j) = Ok (cp P i j).
Proof. intros A B. rewrite get2_ok; rewrite ?Nat2Z.id; try lia; try assumption. reflexivity. Qed.

Lemma comp4_axpy c t a P : comp4 c -> c (v4axpy t a P) = c t + a * c P.
Proof. intros [-> |[-> |[-> | ->]]]; reflexivity. Qed.

(** ** evaluation *)
Lemma surf_inner_loop p q us vs Nu P l temp n m :
  (p <= us <= n)%nat -> (q <= vs <= m)%nat -> (l <= q)%nat -> length P = S n -> (forall i, (i < S n)%nat -> length (nth i P []) = S m) ->
  (p < length Nu)%nat -> (l < length temp)%nat ->
  exists temp', for_up (p + 1) 0 (surf_inner p q us vs Nu P l) temp = Ok temp' /\ length temp' = length temp /\
    (forall j, j <> l -> nth j temp' d4 = nth j temp d4) /\
    forall c, comp4 c -> c (nth l temp' d4) =
      c (nth l temp d4) + qsum (fun k => nth k Nu 0 * c (cp P (us - p + k) (vs - q + l))) (S p).
Proof.
  intros Hu Hv Hl HP HR HN HT.
  destruct (for_up_inv (fun k t' => length t' = length temp /\ (forall j, j <> l -> nth j t' d4 = nth j temp d4) /\
     forall c, comp4 c -> c (nth l t' d4) = c (nth l temp d4) + qsum (fun k => nth k Nu 0 * c (cp P (us - p + k) (vs - q + l))) k)
     (surf_inner p q us vs Nu P l) (p + 1) 0 temp) as (t' & E & L & O & S).
  - split; [reflexivity|]. split; [reflexivity|]. intros c _. cbn. ring.
  - intros k t' _ Hk (L & O & S). unfold surf_inner. rewrite (get_ok Nu k 0) by lia. cbn [bind].
    rewrite (get_ok t' l d4) by lia. cbn [bind].
    rewrite get2_ok; [|lia|lia| |].
    2:{ rewrite HP. lia. }
    2:{ rewrite HR by lia. lia. }
    cbn [bind]. replace (Z.to_nat (Z.of_nat us - Z.of_nat p + Z.of_nat k)) with (us - p + k)%nat by lia.
    replace (Z.to_nat (Z.of_nat vs - Z.of_nat q + Z.of_nat l)) with (vs - q + l)%nat by lia.
    match goal with |- context [set_nth t' l ?x] => destruct (set_nth_ok t' l x) as (t2 & E2 & L2 & G2); [lia|] end.
    exists t2. split; [exact E2|]. split; [lia|]. split.
    + intros j Hj. rewrite G2. destruct (Nat.eqb_spec j l); [contradiction|]. apply O. assumption.
    + intros c Hc. rewrite G2, Nat.eqb_refl. rewrite comp4_axpy by assumption. rewrite S by assumption. cbn [qsum]. ring.
  - exists t'. split; [exact E|]. split; [exact L|]. split; [exact O|]. intros c Hc. rewrite S by assumption.
    rewrite Nat.add_0_l, Nat.add_1_r. reflexivity.
Qed.

Lemma surface_sum s n m u v us vs c : good_surf s n m -> in_surf s n m u v ->
  is_span (knot (ns_ku s)) n us u -> (ns_du s <= us)%nat -> is_span (knot (ns_kv s)) m vs v -> (ns_dv s <= vs)%nat ->
  tensor c s n m u v =
  qsum (fun l => bsp (knot (ns_kv s)) vs (ns_dv s) (vs - ns_dv s + l) v *
    qsum (fun k => bsp (knot (ns_ku s)) us (ns_du s) (us - ns_du s + k) u * c (cp (ns_cps s) (us - ns_du s + k) (vs - ns_dv s + l))) (S (ns_du s)))
    (S (ns_dv s)).
Proof.
  intros (G1 & G2 & G3 & G4 & VU & VV & _) (DU & DV) IU HU IV HV.
  pose proof IU as (LU & _). pose proof IV as (LV & _).
  unfold tensor. rewrite qsum_swap.
  rewrite (qsum_ext _ (fun j => bsp (knot (ns_kv s)) vs (ns_dv s) j v *
    qsum (fun i => bsp (knot (ns_ku s)) us (ns_du s) i u * c (cp (ns_cps s) i j)) (S n))).
  - rewrite bsp_sum_support by lia. apply qsum_ext. intros l Hl. f_equal. rewrite bsp_sum_support by lia. reflexivity.
  - intros j _. rewrite <- qsum_scale. apply qsum_ext. intros i _.
    rewrite (basis_at_bsp n _ _ u us) by assumption. rewrite (basis_at_bsp m _ _ v vs) by assumption. ring.
Qed.

Lemma evaluate_surface s n m u v : good_surf s n m -> in_surf s n m u v -> tensor ww s n m u v <> 0 ->
  ns_evaluate s u v = Ok (surf_point s n m u v).
Proof.
  intros G D W. pose proof G as (G1 & G2 & G3 & G4 & VU & VV & H8 & H8'). pose proof D as (DU & DV).
  unfold ns_evaluate, surface_point. rewrite G3, G4. cbn [last_index surf_span].
  destruct (find_span_spec _ _ _ _ VU DU) as (us & E1 & HU & IU). destruct (find_span_spec _ _ _ _ VV DV) as (vs & E2 & HV & IV).
  pose proof IU as (LU & _). pose proof IV as (LV & _).
  rewrite E1. cbn [bind]. rewrite E2. cbn [bind].
  pose proof VU as (PU & KU & SU & _). pose proof VV as (PV & KV & SV & _).
  destruct (basis_funs_spec (ns_ku s) u us (ns_du s) zeros) as (Nu & E3 & L3 & B3 & _);
    [apply sorted_mono; assumption|eapply valid_span_ok; eassumption|assumption|assumption|lia|reflexivity|].
  destruct (basis_funs_spec (ns_kv s) v vs (ns_dv s) zeros) as (Nv & E4 & L4 & B4 & _);
    [apply sorted_mono; assumption|eapply valid_span_ok; eassumption|assumption|assumption|lia|reflexivity|].
  rewrite E3. cbn [bind]. rewrite E4. cbn [bind].
  assert (forall i, (i < S n)%nat -> length (nth i (ns_cps s) []) = S m) as HR by (intros; eapply good_rows; eassumption).
  rewrite (get2_nat _ 0 0) by (rewrite ?HR; lia). cbn [bind].
  set (p := ns_du s) in *. set (q := ns_dv s) in *. set (P := ns_cps s) in *.
  destruct (for_up_inv (fun l t' => length t' = 9%nat /\ (forall j, (l <= j < 9)%nat -> nth j t' d4 = d4) /\
     forall j c, (j < l)%nat -> comp4 c -> c (nth j t' d4) = qsum (fun k => nth k Nu 0 * c (cp P (us - p + k) (vs - q + j))) (S p))
     (fun l temp => for_up (p + 1) 0 (surf_inner p q us vs Nu P l) temp) (q + 1) 0 (repeat v4zero DEG_STACK_SIZE)) as (t' & E & L & _ & S).
  { split; [reflexivity|]. split; [|intros; lia]. intros j Hj. unfold DEG_STACK_SIZE. do 9 (destruct j; [reflexivity|]). lia. }
  { intros l t' _ Hl (L & O & S). destruct (surf_inner_loop p q us vs Nu P l t' n m) as (t2 & E & L2 & O2 & S2); try lia; try assumption.
    exists t2. split; [exact E|]. split; [lia|]. split.
    - intros j Hj. rewrite O2 by lia. apply O. lia.
    - intros j c Hj Hc. destruct (Nat.eq_dec j l) as [->|].
      + rewrite S2 by assumption. rewrite O by lia. rewrite <- (Qcplus_0_l (qsum _ _)) at 2. f_equal. destruct Hc as [-> |[-> |[-> | ->]]]; reflexivity.
      + rewrite O2 by assumption. apply S; [lia|assumption]. }
  rewrite E. cbn [bind].
  destruct (for_up_inv (fun l w => forall c, comp4 c -> c w = qsum (fun l => nth l Nv 0 * c (nth l t' d4)) l)
    (fun l w => nv <- get Nv l ;; t <- get t' l ;; Ok (v4axpy w nv t)) (q + 1) 0 v4zero) as (w & Ew & Sw).
  { intros c Hc. destruct Hc as [-> |[-> |[-> | ->]]]; reflexivity. }
  { intros l w _ Hl S'. rewrite (get_ok _ _ 0) by lia. cbn [bind]. rewrite (get_ok _ _ d4) by lia. cbn [bind]. eexists. split; [reflexivity|].
    intros c Hc. rewrite comp4_axpy by assumption. rewrite S' by assumption. reflexivity. }
  rewrite Ew. cbn [bind].
  assert (forall c, comp4 c -> c w = tensor c s n m u v) as K.
  { intros c Hc. rewrite Sw by assumption. rewrite (surface_sum s n m u v us vs) by assumption. fold p q P.
    rewrite Nat.add_0_l, Nat.add_1_r. apply qsum_ext. intros l Hl. rewrite B4 by lia. f_equal. rewrite S by (lia || assumption).
    apply qsum_ext. intros k Hk. rewrite B3 by lia. reflexivity. }
  rewrite !K by (unfold comp4; auto). rewrite !qdiv_ok by assumption. reflexivity.
Qed.

(** positive weights give a positive denominator *)
Lemma tensor_lower s n m u v (c : vec4 -> Qc) lo : good_surf s n m -> in_surf s n m u v ->
  (forall i j, (i < S n)%nat -> (j < S m)%nat -> lo <= c (cp (ns_cps s) i j)) -> lo <= tensor c s n m u v.
Proof.
  intros (_ & _ & _ & _ & VU & VV & _) (DU & DV) H. unfold tensor.
  assert (lo = qsum (fun i => basis_at (ns_ku s) n (ns_du s) u i * lo) (S n)) as E.
  { rewrite (qsum_ext _ (fun i => lo * basis_at (ns_ku s) n (ns_du s) u i)) by (intros; ring).
    rewrite qsum_scale. rewrite partition_all by assumption. ring. }
  rewrite E. apply qsum_le. intros i Hi.
  assert (lo = qsum (fun j => basis_at (ns_kv s) m (ns_dv s) v j * lo) (S m)) as E'.
  { rewrite (qsum_ext _ (fun i => lo * basis_at (ns_kv s) m (ns_dv s) v i)) by (intros; ring).
    rewrite qsum_scale. rewrite partition_all by assumption. ring. }
  rewrite E' at 1. rewrite <- qsum_scale. apply qsum_le. intros j Hj.
  pose proof (basis_at_nonneg n _ _ u i VU DU). pose proof (basis_at_nonneg m _ _ v j VV DV). specialize (H i j Hi Hj).
  set (a := basis_at _ _ _ u i) in *. set (b := basis_at _ _ _ v j) in *. set (x := c _) in *.
  assert (0 <= a * b) by (apply Qcmul_nonneg; assumption).
  replace (a * (b * lo)) with (a * b * lo) by ring. assert (0 <= a * b * (x - lo)) by (apply Qcmul_nonneg; [assumption|qc_lra]).
  replace (a * b * x) with (a * b * lo + a * b * (x - lo)) by ring. qc_lra.
Qed.

Lemma cp_in s n m i j : good_surf s n m -> (i < S n)%nat -> (j < S m)%nat ->
  In (nth i (ns_cps s) []) (ns_cps s) /\ In (cp (ns_cps s) i j) (nth i (ns_cps s) []).
Proof.
  intros G Hi Hj. pose proof (good_rows s n m i G Hi). destruct G as (G1 & _).
  split; apply nth_In; lia.
Qed.

Lemma finite_min (f : nat -> Qc) n : (forall i, (i < n)%nat -> 0 < f i) -> exists w, 0 < w /\ forall i, (i < n)%nat -> w <= f i.
Proof.
  induction n; intros H.
  - exists 1. split; [reflexivity|]. intros; lia.
  - destruct IHn as (w & W & L); [intros; apply H; lia|]. exists (Qcmin w (f n)). split.
    + unfold Qcmin. destruct (f n <? w); [apply H; lia|assumption].
    + intros i Hi. unfold Qcmin. destruct (Qcltb_spec (f n) w); destruct (Nat.eq_dec i n) as [->|];
        try (assert (w <= f i) by (apply L; lia)); try qc_lra.
Qed.

Lemma tensor_weight_pos s n m u v : good_surf s n m -> in_surf s n m u v -> positive_surf s -> 0 < tensor ww s n m u v.
Proof.
  intros G D W.
  assert (exists w, 0 < w /\ forall i j, (i < S n)%nat -> (j < S m)%nat -> w <= ww (cp (ns_cps s) i j)) as (w & Hw & L).
  { assert (forall i, (i < S n)%nat -> exists w, 0 < w /\ forall j, (j < S m)%nat -> w <= ww (cp (ns_cps s) i j)) as R.
    { intros i Hi. apply finite_min. intros j Hj. destruct (cp_in s n m i j G Hi Hj). eapply W; eassumption. }
    clear - R. induction (S n) as [|k IH].
    - exists 1. split; [reflexivity|]. intros; lia.
    - destruct IH as (w & Hw & L); [intros; apply R; lia|]. destruct (R k ltac:(lia)) as (w' & Hw' & L').
      exists (Qcmin w w'). split.
      + unfold Qcmin. destruct (w' <? w); assumption.
      + intros i j Hi Hj. unfold Qcmin. destruct (Nat.eq_dec i k) as [->|].
        * specialize (L' j Hj). destruct (Qcltb_spec w' w); qc_lra.
        * specialize (L i j ltac:(lia) Hj). destruct (Qcltb_spec w' w); qc_lra. }
  pose proof (tensor_lower s n m u v ww w G D L). qc_lra.
Qed.

Lemma evaluate_positive_surf s n m u v : good_surf s n m -> in_surf s n m u v -> positive_surf s ->
  ns_evaluate s u v = Ok (surf_point s n m u v).
Proof.
  intros G D W. apply evaluate_surface; try assumption. pose proof (tensor_weight_pos s n m u v G D W). intros E. rewrite E in H. qc_lra.
Qed.
