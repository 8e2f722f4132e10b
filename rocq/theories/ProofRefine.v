(** Proofs about knot refinement. *)
From Coq Require Import List ZArith QArith Qcanon Bool Lia Lqa Field Permutation.
From Verif Require Import Base BaseFacts LoopFacts ModelVec ModelNurbs ModelSurface ModelRefine SpecNurbs SpecRefine
  ProofBspline ProofNurbs ProofInsertion ProofInsertCurve ProofInsertKnot ProofSmooth ProofDerivative ProofNurbsMisc.
Import ListNotations.
Open Scope Qc_scope.

(** ** one insertion, from any of the spans that touch the new knot *)
Lemma insf_slide V i k' t x : (i <= k')%nat -> (forall y, (i < y <= k')%nat -> V y = t) -> insf V i t x = insf V k' t x.
Proof.
  intros H E. unfold insf.
  destruct (Nat.leb_spec x i), (Nat.leb_spec x k'); try lia; try reflexivity.
  - destruct (Nat.eqb_spec x (S i)); [rewrite E by lia; reflexivity|]. rewrite !E by lia. reflexivity.
  - destruct (Nat.eqb_spec x (S i)), (Nat.eqb_spec x (S k')); try lia; try reflexivity.
    + rewrite E by lia. reflexivity.
Qed.

Lemma one_insertion N p V V' (W W' : nat -> Qc) i t u : valid_knots N p V -> (p <= i <= N)%nat -> (1 <= p)%nat ->
  knot V i <= t -> t <= knot V (S i) -> t < knot V (i + p) -> t < knot V (S N) ->
  (forall x, knot V' x = insf (knot V) i t x) ->
  (forall x, (x + p <= i)%nat -> W' x = W x) ->
  (forall x, (i < x + p)%nat -> (x <= i)%nat -> knot V (x + p) = t -> W' x = W x) ->
  (forall x, (i < x + p)%nat -> (x <= i)%nat -> knot V (x + p) <> t ->
     W' x = (knot V (x + p) - t) / (knot V (x + p) - knot V x) * W (x - 1)%nat + (1 - (knot V (x + p) - t) / (knot V (x + p) - knot V x)) * W x) ->
  (forall x, (i < x <= S N)%nat -> W' x = W (x - 1)%nat) ->
  in_domain N p V u ->
  qsum (fun x => basis_at V' (S N) p u x * W' x) (S (S N)) = qsum (fun x => basis_at V N p u x * W x) (S N).
Proof.
  intros VK Hi Hp1 T1 T2 T3 T4 KV G1 G2 G3 G4 D. pose proof VK as (Hpn & HL & HS & HN). pose proof D as (D1 & D2).
  pose proof (sorted_mono V HS) as M.
  destruct (domain_span N p V t VK) as (k' & Hk' & A & B).
  { assert (knot V p <= knot V i) by (apply M; lia). qc_lra. }
  { rewrite Nat.add_1_r. assumption. }
  assert (i <= k')%nat as Hik.
  { destruct (Nat.lt_ge_cases k' i) as [F|F]; [|assumption]. exfalso. assert (knot V (S k') <= knot V i) by (apply M; lia). qc_lra. }
  assert (forall y, (i < y <= k')%nat -> knot V y = t) as EQ.
  { intros y Hy. apply Qcle_antisym.
    - apply Qcle_trans with (knot V k'); [apply M; lia|assumption].
    - apply Qcle_trans with (knot V (S i)); [assumption|apply M; lia]. }
  assert (k' < i + p)%nat as Hkp.
  { destruct (Nat.lt_ge_cases k' (i + p)) as [F|F]; [assumption|]. exfalso. rewrite (EQ (i + p)%nat) in T3 by lia. qc_lra. }
  destruct (find_span_spec N p V u VK D) as (s & _ & Hs & IS).
  pose proof (valid_span_ok _ _ _ _ _ VK IS) as SO.
  rewrite (qsum_ext (fun x => basis_at V N p u x * W x) (fun x => bsp (knot V) s p x u * W x)).
  2:{ intros x _. rewrite (basis_at_bsp N p V u s) by assumption. reflexivity. }
  assert (forall x, knot V' x = insf (knot V) k' t x) as KV2 by (intros x; rewrite KV; apply insf_slide; assumption).
  rewrite (insert_sum (knot V) k' s t u M SO A B p N W W').
  - apply qsum_ext. intros x _. f_equal. unfold basis_at. rewrite (bspline_bsp _ _ _ _ _ (ins_span s k' t u)).
    + apply bsp_ext. assumption.
    + apply is_span_pick.
      * eapply mono_ext; [intros; symmetry; apply KV2|]. apply insf_mono; [assumption|assumption|qc_lra].
      * eapply is_span_ext; [intros; symmetry; apply KV2|]. apply ins_span_is; try assumption. lia.
      * rewrite KV2. rewrite (insf_hi _ _ _ _ (S N)) by lia. rewrite <- (Nat.add_1_r N). assumption.
  - lia.
  - lia.
  - apply G1. lia.
  - intros x Hx. destruct (Nat.le_gt_cases (x + p) i) as [C1|C1].
    { rewrite G1 by lia. rewrite al_lo by lia. ring. }
    destruct (Nat.le_gt_cases x i) as [C2|C2].
    + destruct (Nat.le_gt_cases (x + p) k') as [C3|C3].
      * rewrite al_lo by lia. rewrite G2 by (try lia; apply EQ; lia). ring.
      * assert (t < knot V (x + p)) as L by (apply Qclt_le_trans with (knot V (S k')); [assumption|apply M; lia]).
        assert (knot V x <= t) as L2 by (apply Qcle_trans with (knot V i); [apply M; lia|assumption]).
        rewrite (al_mid _ _ _ p x (x + p)) by lia. rewrite G3; [|lia|lia|intros F; rewrite F in L; qc_lra].
        field. apply Qcsub_pos. qc_lra.
    + rewrite G4 by lia. destruct (Nat.le_gt_cases x k') as [C3|C3].
      * rewrite (al_mid _ _ _ p x (x + p)) by lia. rewrite (EQ x) by lia. replace (t - t) with 0 by ring. unfold Qcdiv. ring.
      * rewrite al_hi by lia. ring.
  - rewrite G4 by lia. f_equal. lia.
Qed.

Lemma knot_ins V i t x : (i + 2 <= length V)%nat -> knot (firstn (i + 1) V ++ t :: skipn (i + 1) V) x = insf (knot V) i t x.
Proof.
  intros H. change (t :: skipn (i + 1) V) with (repeat t 1 ++ skipn (i + 1) V). rewrite kv_knot by assumption.
  rewrite insr_S. rewrite Nat.add_0_r. unfold insf. destruct (Nat.leb x i); [apply insr_0|]. destruct (Nat.eqb x (S i)); [reflexivity|apply insr_0].
Qed.

Lemma ins_valid N p V i t : valid_knots N p V -> (p <= i <= N)%nat -> knot V i <= t -> t <= knot V (S i) -> t < knot V (S N) ->
  let V' := firstn (i + 1) V ++ t :: skipn (i + 1) V in
  valid_knots (S N) p V' /\ knot V' p = knot V p /\ knot V' (S (S N)) = knot V (S N) /\ Permutation V' (t :: V).
Proof.
  intros (Hpn & HL & HS & HN) Hi T1 T2 T3 V'. pose proof (sorted_mono V HS) as M.
  assert (forall x, knot V' x = insf (knot V) i t x) as KV by (intros; apply knot_ins; lia).
  split; [|split; [|split]].
  - split; [lia|]. split; [|split].
    + unfold V'. rewrite app_length. cbn [length]. rewrite firstn_length, skipn_length. lia.
    + apply mono_sorted. eapply mono_ext; [intros; symmetry; apply KV|]. apply insf_mono; assumption.
    + rewrite !KV. rewrite (insf_hi _ _ _ (S N + 1) (S N)) by lia. destruct (Nat.eq_dec i N) as [->|].
      * rewrite insf_at by reflexivity. assumption.
      * rewrite (insf_hi _ _ _ (S N) N) by lia. rewrite <- (Nat.add_1_r N). assumption.
  - rewrite KV. apply insf_lo. lia.
  - rewrite KV. apply insf_hi; lia.
  - unfold V'. rewrite <- Permutation_middle. constructor. rewrite firstn_skipn. reflexivity.
Qed.

Lemma minus_ok a b : (b <= a)%nat -> minus a b = Ok (a - b)%nat.
Proof. intros H. unfold minus. destruct (Nat.leb_spec b a); [reflexivity|lia]. Qed.

Section Loop.
Variables (p a n R : nat) (U X : list Qc) (P : list vec4).
Hypothesis Hp : (1 <= p)%nat.
Hypothesis VK : valid_knots n p U.
Hypothesis LP : length P = S n.
Hypothesis Ha : (p <= a <= n)%nat.

(** the knots still to be written and those written, as one vector; likewise the points *)
Definition Inv (d i : nat) (Q : list vec4) (kv : list Qc) (V : list Qc) (W : list vec4) : Prop :=
  length kv = (n + p + 2 + R)%nat /\ length Q = (n + 1 + R)%nat /\ (d <= R)%nat /\ (a <= i <= n + p)%nat /\
  length V = (n + p + 2 + (R - d))%nat /\ length W = (n + 1 + (R - d))%nat /\
  (forall x, (x <= i)%nat -> nth x V 0 = nth x U 0) /\
  (forall x, (i < x < length V)%nat -> nth x V 0 = nth (x + d) kv 0) /\
  (forall x, (x < i - p)%nat -> nth x W d4 = nth x P d4) /\
  (forall x, (i - p <= x < length W)%nat -> nth x W d4 = nth (x + d) Q d4) /\
  (forall x, (x <= a)%nat -> nth x kv 0 = nth x U 0) /\
  (forall x, (x < a - p)%nat -> nth x Q d4 = nth x P d4).

Lemma down d x V W : (1 <= d)%nat -> forall i Q kv, Inv d i Q kv V W ->
  exists i' Q' kv', refine_down p a x U P i (i + d) Q kv = Ok (i', (i' + d)%nat, Q', kv') /\ Inv d i' Q' kv' V W /\ (i' <= i)%nat /\
    (nth i' U 0 < x \/ i' = a) /\ ((i' < i)%nat -> x <= nth (S i') U 0).
Proof.
  intros Hd. destruct VK as (Hpn & HL & HS & HN).
  induction i as [|i IH]; intros Q kv I; pose proof I as (I1 & I2 & I3 & I4 & I5 & I6 & I7 & I8 & I9 & I10 & I11 & I12).
  - lia.
  - cbn [refine_down]. rewrite (get_ok U (S i) 0) by lia. cbn [bind].
    destruct ((x <=? nth (S i) U 0) && Nat.ltb a (S i)) eqn:B.
    + apply andb_prop in B as [B1 B2]. apply Qcleb_iff in B1. apply Nat.ltb_lt in B2.
      rewrite !minus_ok by lia. cbn [bind]. rewrite (get_ok P _ d4) by lia. cbn [bind].
      destruct (set_nth_ok Q (S i + d - (p + 1)) (nth (S i - (p + 1)) P d4)) as (Q1 & E1 & L1 & N1); [lia|]. rewrite E1. cbn [bind].
      destruct (set_nth_ok kv (S i + d) (nth (S i) U 0)) as (kv1 & E2 & L2 & N2); [lia|]. rewrite E2. cbn [bind].
      replace (S i + d - 1)%nat with (i + d)%nat by lia.
      destruct (IH Q1 kv1) as (i' & Q' & kv' & E & I' & Hi' & C1 & C2).
      { unfold Inv. rewrite L1, L2. repeat split; try lia; try assumption.
        - intros y Hy. apply I7. lia.
        - intros y Hy. rewrite N2. destruct (Nat.eqb_spec (y + d) (S i + d)) as [F|F]; [assert (y = S i) as -> by lia; apply I7; lia|apply I8; lia].
        - intros y Hy. apply I9. lia.
        - intros y Hy. rewrite N1. destruct (Nat.eqb_spec (y + d) (S i + d - (p + 1))) as [F|F].
          + replace y with (S i - (p + 1))%nat by lia. apply I9. lia.
          + apply I10. lia.
        - intros y Hy. rewrite N2. destruct (Nat.eqb_spec y (S i + d)); [lia|apply I11; lia].
        - intros y Hy. rewrite N1. destruct (Nat.eqb_spec y (S i + d - (p + 1))); [lia|apply I12; lia]. }
      exists i', Q', kv'. split; [exact E|]. split; [exact I'|]. split; [lia|]. split; [exact C1|].
      intros _. destruct (Nat.eq_dec i' i) as [->|F]; [assumption|apply C2; lia].
    + exists (S i), Q, kv. split; [reflexivity|]. split; [exact I|]. split; [lia|]. split; [|lia].
      apply andb_false_iff in B as [B|B]; [left; apply Qcleb_false; exact B|right; apply Nat.ltb_ge in B; lia].
Qed.

(** what the loop over l leaves in the place of W (i - p + l) *)
Definition blended (V : list Qc) (W : list vec4) (x : Qc) (y : nat) : vec4 :=
  if Qcabs (nth (y + p) V 0 - x) <? lit_1em8 then nth y W d4
  else let al := (nth (y + p) V 0 - x) / (nth (y + p) V 0 - nth y V 0) in
       v4add (v4scale (nth (y - 1) W d4) al) (v4scale (nth y W d4) (1 - al)).

Lemma blend_loop d x i Q kv V W : (1 <= d)%nat -> Inv d i Q kv V W -> (i <= n)%nat -> nth i U 0 <= x -> (forall l, (1 <= l <= p)%nat -> x <= nth (i + l) V 0) ->
  exists Q0 Q', set_nth Q (i + d - (p + 1)) (nth (i + d - p) Q d4) = Ok Q0 /\
    for_up p 1 (refine_blend p x U i (i + d) kv) Q0 = Ok Q' /\ length Q' = length Q /\
    (forall y, (y < i + d - (p + 1))%nat -> nth y Q' d4 = nth y Q d4) /\
    nth (i + d - (p + 1)) Q' d4 = nth (i + d - p) Q d4 /\
    (forall l, (1 <= l <= p)%nat -> nth (i + d - p + l - 1) Q' d4 = blended V W x (i - p + l)) /\
    (forall y, (i + d <= y)%nat -> nth y Q' d4 = nth y Q d4).
Proof.
  intros Hd I Hin Ui Vl. pose proof I as (I1 & I2 & I3 & I4 & I5 & I6 & I7 & I8 & I9 & I10 & I11 & I12). destruct VK as (Hpn & HL & HS & HN).
  destruct (set_nth_ok Q (i + d - (p + 1)) (nth (i + d - p) Q d4)) as (Q0 & E0 & L0 & N0); [lia|]. exists Q0.
  destruct (for_up_inv (fun L Q' => length Q' = length Q /\
      (forall l, (1 <= l < L)%nat -> nth (i + d - p + l - 1) Q' d4 = blended V W x (i - p + l)) /\
      (forall y, (y < i + d - p)%nat -> nth y Q' d4 = nth y Q0 d4) /\
      (forall y, (i + d - p + L - 1 <= y)%nat -> nth y Q' d4 = nth y Q d4))
    (refine_blend p x U i (i + d) kv) p 1 Q0) as (Q' & E & F1 & F2 & F3 & F4).
  - split; [exact L0|]. split; [intros l Hl; lia|]. split; [reflexivity|]. intros y Hy. rewrite N0. destruct (Nat.eqb_spec y (i + d - (p + 1))); [lia|reflexivity].
  - intros l Q1 Hl1 Hl2 (G1 & G2 & G3 & G4). unfold refine_blend.
    rewrite (get_ok kv _ 0) by lia. cbn [bind]. rewrite (get_ok Q1 _ d4) by lia. cbn [bind]. rewrite (get_ok Q1 _ d4) by lia. cbn [bind].
    rewrite (G4 (i + d - p + l)%nat) by lia. rewrite (G4 (i + d - p + l - 1)%nat) by lia.
    assert (nth (i + d + l) kv 0 = nth (i + l) V 0) as EK. { rewrite I8 by lia. f_equal. lia. }
    assert (nth (i + d - p + l) Q d4 = nth (i - p + l) W d4) as EQ1. { rewrite I10 by lia. f_equal. lia. }
    assert (nth (i + d - p + l - 1) Q d4 = nth (i - p + l - 1) W d4) as EQ0. { rewrite I10 by lia. f_equal. lia. }
    rewrite EK, EQ1, EQ0.
    assert (exists Q2, (if Qcabs (nth (i + l) V 0 - x) <? lit_1em8 then set_nth Q1 (i + d - p + l - 1) (nth (i - p + l) W d4) else
        ui <- getZ U (Z.of_nat i - Z.of_nat p + Z.of_nat l) ;; alpha <- qdiv (nth (i + l) V 0 - x) (nth (i + l) V 0 - ui) ;;
        set_nth Q1 (i + d - p + l - 1) (v4add (v4scale (nth (i - p + l - 1) W d4) alpha) (v4scale (nth (i - p + l) W d4) (1 - alpha)))) = Ok Q2 /\
        set_nth Q1 (i + d - p + l - 1) (blended V W x (i - p + l)) = Ok Q2) as (Q2 & E2 & S2).
    { unfold blended. replace (i - p + l + p)%nat with (i + l)%nat by lia.
      destruct (Qcltb_spec (Qcabs (nth (i + l) V 0 - x)) lit_1em8) as [Z|Z].
      - destruct (set_nth_ok Q1 (i + d - p + l - 1) (nth (i - p + l) W d4)) as (Q2 & E2 & _); [lia|]. exists Q2. split; exact E2.
      - rewrite (getZ_ok U _ 0) by lia. cbn [bind]. replace (Z.to_nat (Z.of_nat i - Z.of_nat p + Z.of_nat l)) with (i - p + l)%nat by lia.
        rewrite (I7 (i - p + l)%nat) by lia.
        assert (nth (i + l) V 0 - nth (i - p + l) U 0 <> 0) as NZ.
        { assert (nth (i - p + l) U 0 <= nth i U 0) by (apply HS; lia). pose proof (Vl l ltac:(lia)). intros F. apply Z.
          assert (nth (i + l) V 0 = x) as -> by (apply Qcle_antisym; [|assumption]; qc_lra). replace (x - x) with 0 by ring. reflexivity. }
        rewrite qdiv_ok by exact NZ. cbn [bind].
        match goal with |- context [set_nth Q1 ?j ?v] => destruct (set_nth_ok Q1 j v) as (Q2 & E2 & _); [lia|] end. exists Q2. split; exact E2. }
    exists Q2. split; [exact E2|].
    destruct (set_nth_ok Q1 (i + d - p + l - 1) (blended V W x (i - p + l))) as (Q2' & E2' & L2 & N2); [lia|]. rewrite S2 in E2'. injection E2' as <-.
    split; [lia|]. split; [|split].
    + intros l' Hl'. rewrite N2. destruct (Nat.eqb_spec (i + d - p + l' - 1) (i + d - p + l - 1)) as [F|F]; [replace l' with l by lia; reflexivity|apply G2; lia].
    + intros y Hy. rewrite N2. destruct (Nat.eqb_spec y (i + d - p + l - 1)); [lia|apply G3; lia].
    + intros y Hy. rewrite N2. destruct (Nat.eqb_spec y (i + d - p + l - 1)); [lia|apply G4; lia].
  - exists Q'. split; [exact E0|]. split; [exact E|]. split; [exact F1|]. split; [|split; [|split]].
    + intros y Hy. rewrite F3 by lia. rewrite N0. destruct (Nat.eqb_spec y (i + d - (p + 1))); [lia|reflexivity].
    + rewrite F3 by lia. rewrite N0, Nat.eqb_refl. reflexivity.
    + intros l Hl. apply F2. lia.
    + intros y Hy. apply F4. lia.
Qed.

Definition Good (d : nat) (used V : list Qc) (W : list vec4) : Prop :=
  Permutation V (used ++ U) /\ valid_knots (n + (R - d)) p V /\ knot V p = knot U p /\ knot V (S (n + (R - d))) = knot U (n + 1) /\
  (unit_weights P -> forall y, (y < n + 1 + (R - d))%nat -> ww (nth y W d4) = 1) /\
  forall c u, coordinate c -> in_domain n p U u -> combination c V (n + (R - d)) p W u = combination c U n p P u.

Lemma multiplicity_perm l l' t : Permutation l l' -> multiplicity l t = multiplicity l' t.
Proof.
  unfold multiplicity. induction 1 as [|x l l' H IH|x y l|l1 l2 l3 H1 IH1 H2 IH2]; cbn [filter]; [reflexivity| | |congruence].
  - destruct (t =? x); cbn [length]; congruence.
  - destruct (t =? x), (t =? y); reflexivity.
Qed.
Lemma multiplicity_cons x l t : multiplicity (x :: l) t = ((if (t =? x)%Qc then 1 else 0) + multiplicity l t)%nat.
Proof. unfold multiplicity. cbn [filter]. destruct (t =? x); reflexivity. Qed.
Lemma multiplicity_app l l' t : multiplicity (l ++ l') t = (multiplicity l t + multiplicity l' t)%nat.
Proof. unfold multiplicity. rewrite filter_app, app_length. reflexivity. Qed.

Lemma coarse_close l x y : coarse (fun z => In z l) -> In x l -> In y l -> x <= y -> (Qcabs (y - x) <? lit_1em8) = (y =? x).
Proof.
  intros C A B H. assert (Qcabs (y - x) = y - x) as ->. { destruct (ProofMinimize.Qcabs_cases (y - x)) as [[_ E]|[F E]]; [exact E|qc_lra]. }
  pose proof lit8_pos. destruct (Qceqb_spec y x) as [->|E].
  - replace (x - x) with 0 by ring. reflexivity.
  - apply Qcltb_false. destruct (C y x B A) as [F|[F|F]]; [contradiction|exact F|]. change tol_1em8 with lit_1em8 in F. exfalso. qc_lra.
Qed.

Lemma coordinate_comp4 c : coordinate c -> comp4 c.
Proof. intros H. exact H. Qed.

Lemma main_loop : forall xs used i Q kv V W,
  (length xs + length used = R)%nat -> Inv (length xs) i Q kv V W -> Good (length xs) used V W ->
  (forall k k', (k <= k' < length xs)%nat -> nth k' xs 0 <= nth k xs 0) ->
  (forall x, In x xs -> knot U a <= x /\ x < knot U (n + 1) /\ (multiplicity (used ++ xs ++ U) x <= p)%nat) ->
  coarse (fun z => In z (used ++ xs ++ U)) ->
  match xs with [] => i = a | x :: _ => last xs 0 < nth (S a) U 0 /\ (x <= knot V (S i) \/ (x <= nth i U 0 /\ (a < i)%nat)) end ->
  exists Q' kv', refine_loop p a U P xs i (i + length xs) Q kv = Ok (Q', kv') /\ length Q' = (n + 1 + R)%nat /\ Good 0 (rev xs ++ used) kv' Q'.
Proof.
  pose proof VK as (Hpn & HL & HS & HN).
  induction xs as [|x xs IH]; intros used i Q kv V W HR I G SX BX CX EX.
  - cbn [refine_loop length rev app] in *. exists Q, kv. split; [reflexivity|].
    destruct I as (I1 & I2 & I3 & I4 & I5 & I6 & I7 & I8 & I9 & I10 & I11 & I12). split; [assumption|].
    assert (V = kv) as <-.
    { apply (nth_ext_len _ _ 0); [lia|]. intros y Hy. destruct (Nat.le_gt_cases y i) as [C|C].
      - rewrite I7 by lia. rewrite I11 by lia. reflexivity.
      - rewrite I8 by lia. f_equal. lia. }
    assert (W = Q) as <-.
    { apply (nth_ext_len _ _ d4); [lia|]. intros y Hy. destruct (Nat.lt_ge_cases y (i - p)) as [C|C].
      - rewrite I9 by lia. rewrite I12 by lia. reflexivity.
      - rewrite I10 by lia. f_equal. lia. }
    exact G.
  - set (d := S (length xs)) in *. change (length (x :: xs)) with d in *. cbn [refine_loop].
    destruct EX as [LX EX]. destruct (down d x V W ltac:(unfold d; lia) i Q kv I) as (i' & Q1 & kv1 & E1 & I' & Hi' & C1 & C2).
    rewrite E1. cbn [bind]. clear E1.
    destruct G as (GP & GV & GK1 & GK2 & GW & GS). pose proof GV as (Hpn' & HL' & HS' & HN'). pose proof (sorted_mono V HS') as MV.
    pose proof (sorted_mono U HS) as MU.
    pose proof I' as (I1 & I2 & I3 & I4 & I5 & I6 & I7 & I8 & I9 & I10 & I11 & I12).
    destruct (BX x (or_introl eq_refl)) as (X1 & X2 & X3).
    assert (i' <= n)%nat as Hin.
    { destruct (Nat.le_gt_cases i' n) as [F|F]; [assumption|]. exfalso. destruct C1 as [C1|C1]; [|lia].
      assert (knot U (n + 1) <= knot U i') as F2 by (apply MU; lia). rewrite (knot_nth U i') in F2 by lia. qc_lra. }
    assert (nth i' U 0 <= x) as Ui. { destruct C1 as [C1| ->]; [qc_lra|]. rewrite <- knot_nth by lia. assumption. }
    assert (knot V i' <= x) as T1. { rewrite knot_nth by lia. rewrite I7 by lia. assumption. }
    assert (x <= knot V (S i')) as T2.
    { destruct (Nat.eq_dec i' i) as [E|E].
      - subst i'. destruct EX as [EX|[EX1 EX2]]; [assumption|]. exfalso. destruct C1 as [C1|C1]; [qc_lra|lia].
      - rewrite knot_nth by lia. destruct I as (_ & _ & _ & _ & _ & _ & I7' & _). rewrite I7' by lia. apply C2. lia. }
    assert (forall l, (1 <= l <= p)%nat -> x <= nth (i' + l) V 0) as Vl.
    { intros l Hl. rewrite <- knot_nth by lia. apply Qcle_trans with (knot V (S i')); [assumption|apply MV; lia]. }
    assert (multiplicity V x < p)%nat as MX.
    { rewrite (multiplicity_perm _ _ x GP). rewrite multiplicity_app in *. change ((x :: xs) ++ U) with (x :: xs ++ U) in X3. rewrite multiplicity_cons, multiplicity_app in X3.
      assert ((x =? x)%Qc = true) as EE by (apply Qceqb_iff; reflexivity). rewrite EE in X3. lia. }
    assert (x < knot V (i' + p)) as T3.
    { destruct (Qcltb_spec x (knot V (i' + p))) as [F|F]; [assumption|]. exfalso.
      assert (p <= multiplicity V x)%nat; [|lia]. apply (mult_range V x (S i') p). intros j Hj. split; [lia|].
      rewrite <- knot_nth by lia. apply Qcle_antisym.
      - apply Qcle_trans with (knot V (i' + p)); [apply MV; lia|]. apply Qcnot_lt_le. assumption.
      - apply Qcle_trans with (knot V (S i')); [assumption|apply MV; lia]. }
    assert (x < knot V (S (n + (R - d)))) as T4 by (rewrite GK2; assumption).
    destruct (blend_loop d x i' Q1 kv1 V W ltac:(unfold d; lia) I' Hin Ui Vl) as (Q0 & Q2 & E0 & E2 & L2 & B1 & B2 & B3 & B4).
    rewrite minus_ok by lia. cbn [bind]. replace (i' + d - (p + 1) + 1)%nat with (i' + d - p)%nat by lia. rewrite (get_ok Q1 _ d4) by lia. cbn [bind].
    rewrite E0. cbn [bind]. rewrite E2. cbn [bind].
    destruct (set_nth_ok kv1 (i' + d) x) as (kv2 & E3 & L3 & N3); [lia|]. rewrite E3. cbn [bind]. rewrite minus_ok by lia. cbn [bind].
    replace (i' + d - 1)%nat with (i' + length xs)%nat by (unfold d; lia).
    set (V' := firstn (i' + 1) V ++ x :: skipn (i' + 1) V).
    set (W' := firstn (i' - p) P ++ skipn (i' - p + length xs) Q2).
    destruct (ins_valid (n + (R - d)) p V i' x GV ltac:(lia) T1 T2 T4) as (V1 & V2 & V3 & V4'). fold V' in V1, V2, V3, V4'.
    assert (S (n + (R - d)) = n + (R - length xs))%nat as EN by (unfold d in *; lia).
    assert (forall y, (y < i' - p)%nat -> nth y W' d4 = nth y W d4) as W1.
    { intros y Hy. unfold W'. rewrite app_nth1 by (rewrite firstn_length; lia). rewrite nth_firstn_lt by lia. symmetry. apply I9. lia. }
    assert (forall y, (i' - p <= y)%nat -> nth y W' d4 = nth (y + length xs) Q2 d4) as W2.
    { intros y Hy. unfold W'. rewrite app_nth2 by (rewrite firstn_length; lia). rewrite nth_skipn_add. rewrite firstn_length. f_equal. lia. }
    assert (forall l, (1 <= l <= p)%nat -> nth (i' - p + l) W' d4 = blended V W x (i' - p + l)) as W3.
    { intros l Hl. rewrite W2 by lia. rewrite <- B3 by lia. f_equal. unfold d. lia. }
    assert (length W' = (n + 1 + (R - length xs))%nat) as LW'. { unfold W'. rewrite app_length, firstn_length, skipn_length. unfold d in *. lia. }
    destruct (IH (x :: used) i' Q2 kv2 V' W') as (Q' & kv' & E' & L' & G').
    + cbn [length]. unfold d in HR. lia.
    + unfold Inv. pose proof V1 as (_ & LV' & _). rewrite L2, L3, LW', LV'. repeat split; try (unfold d in *; lia).
      * intros y Hy. unfold V'. rewrite app_nth1 by (rewrite firstn_length; lia). rewrite nth_firstn_lt by lia. apply I7. lia.
      * intros y Hy. rewrite N3. unfold V'. rewrite app_nth2 by (rewrite firstn_length; lia). rewrite firstn_length. replace (Nat.min (i' + 1) (length V)) with (i' + 1)%nat by lia.
        destruct (Nat.eq_dec y (i' + 1)) as [->|F].
        -- rewrite Nat.sub_diag. cbn [nth]. destruct (Nat.eqb_spec (i' + 1 + length xs) (i' + d)); [reflexivity|unfold d in *; lia].
        -- replace (y - (i' + 1))%nat with (S (y - (i' + 2)))%nat by lia. cbn [nth]. rewrite nth_skipn_add.
           destruct (Nat.eqb_spec (y + length xs) (i' + d)); [unfold d in *; lia|]. rewrite I8 by (unfold d in *; lia). f_equal. unfold d. lia.
      * intros y Hy. rewrite W1 by lia. apply I9. lia.
      * intros y Hy. apply W2. lia.
      * intros y Hy. rewrite N3. destruct (Nat.eqb_spec y (i' + d)); [lia|apply I11; lia].
      * intros y Hy. rewrite B1 by lia. apply I12. lia.
    + unfold Good. rewrite <- EN. split; [|split; [|split; [|split; [|split]]]].
      * rewrite V4'. cbn [app]. constructor. assumption.
      * exact V1.
      * rewrite V2. exact GK1.
      * rewrite V3. exact GK2.
      * intros HU y Hy. specialize (GW HU). destruct (Nat.lt_ge_cases y (i' - p)) as [F1|F1]; [rewrite W1 by lia; apply GW; lia|].
        destruct (Nat.eq_dec y (i' - p)) as [->|F2].
        { rewrite W2 by lia. replace (i' - p + length xs)%nat with (i' + d - (p + 1))%nat by (unfold d; lia). rewrite B2. replace (i' + d - p)%nat with (i' - p + d)%nat by lia. rewrite <- I10 by (unfold d in *; lia). apply GW. lia. }
        destruct (Nat.le_gt_cases y i') as [F3|F3].
        { replace y with (i' - p + (y + p - i'))%nat by lia. rewrite W3 by lia. unfold blended. cbv zeta.
          destruct (_ <? _); [apply GW; lia|]. unfold v4add, v4scale. cbn [ww]. rewrite !GW by lia. ring. }
        rewrite W2 by lia. rewrite B4 by (unfold d; lia). replace (y + length xs)%nat with (y - 1 + d)%nat by (unfold d; lia). rewrite <- I10 by lia. apply GW. unfold d in *. lia.
      * intros c u Hc Hu. rewrite <- (GS c u Hc Hu). unfold combination.
        assert (forall y, In (nth y V 0) (used ++ (x :: xs) ++ U) \/ (length V <= y)%nat) as InV.
        { intros y. destruct (Nat.lt_ge_cases y (length V)) as [F|F]; [left|right; assumption].
          assert (In (nth y V 0) (used ++ U)) as IV by (rewrite <- GP; apply nth_In; assumption).
          apply in_app_or in IV as [IV|IV]; apply in_or_app; [left; assumption|right; right; apply in_or_app; right; assumption]. }
        assert (In x (used ++ (x :: xs) ++ U)) as InX by (apply in_or_app; right; left; reflexivity).
        apply (one_insertion (n + (R - d)) p V V' (fun y => c (nth y W d4)) (fun y => c (nth y W' d4)) i' x u GV ltac:(lia) Hp T1 T2 T3 T4).
        -- intros y. apply knot_ins. lia.
        -- intros y Hy. destruct (Nat.eq_dec y (i' - p)) as [->|F]; [|rewrite W1 by lia; reflexivity].
           rewrite W2 by lia. replace (i' - p + length xs)%nat with (i' + d - (p + 1))%nat by (unfold d; lia). rewrite B2. rewrite I10 by (unfold d in *; lia). do 2 f_equal. lia.
        -- intros y Hy1 Hy2 Hy3. replace y with (i' - p + (y + p - i'))%nat at 1 by lia. rewrite W3 by lia. unfold blended.
           replace (i' - p + (y + p - i'))%nat with y by lia. rewrite knot_nth in Hy3 by lia. rewrite Hy3. replace (x - x) with 0 by ring. reflexivity.
        -- intros y Hy1 Hy2 Hy3. replace y with (i' - p + (y + p - i'))%nat at 1 by lia. rewrite W3 by lia. unfold blended.
           replace (i' - p + (y + p - i'))%nat with y by lia. rewrite !knot_nth in * by lia.
           assert (In (nth (y + p) V 0) (used ++ (x :: xs) ++ U)) as Iy by (destruct (InV (y + p)%nat) as [F|F]; [exact F|lia]).
           rewrite (coarse_close _ x _ CX InX Iy).
           2:{ replace (y + p)%nat with (i' + (y + p - i'))%nat by lia. apply Vl. lia. }
           destruct (Qceqb_spec (nth (y + p) V 0) x) as [F|F]; [contradiction|]. cbv zeta. rewrite comp4_blend by (apply coordinate_comp4; exact Hc). ring.
        -- intros y Hy. rewrite W2 by lia. rewrite B4 by (unfold d; lia). rewrite I10 by lia. do 2 f_equal. unfold d. lia.
        -- destruct Hu as [U1 U2]. split; [rewrite GK1; exact U1|]. rewrite Nat.add_1_r, GK2. exact U2.
    + intros k k' Hk. apply (SX (S k) (S k')). unfold d. lia.
    + intros y Hy. destruct (BX y (or_intror Hy)) as (Y1 & Y2 & Y3). split; [assumption|]. split; [assumption|].
      rewrite (multiplicity_perm _ (used ++ (x :: xs) ++ U)); [assumption|]. cbn [app]. apply Permutation_middle.
    + intros y z Hy Hz. apply CX.
      * rewrite <- (Permutation_middle used (xs ++ U) x). exact Hy.
      * rewrite <- (Permutation_middle used (xs ++ U) x). exact Hz.
    + destruct xs as [|x2 xs2].
      * destruct C1 as [C1|C1]; [|assumption]. cbn [last] in LX. destruct (Nat.eq_dec i' a) as [E|E]; [assumption|]. exfalso.
        assert (nth (S a) U 0 <= nth i' U 0) by (apply HS; lia). qc_lra.
      * split; [exact LX|]. left. unfold V'. rewrite knot_ins by lia. rewrite insf_at by reflexivity. exact (SX 0%nat 1%nat ltac:(unfold d; cbn [length]; lia)).
    + exists Q', kv'. split; [exact E'|]. split; [exact L'|]. cbn [rev]. rewrite <- app_assoc. exact G'.
Qed.
End Loop.
