(** Rounding errors of knot insertion. *)
From Coq Require Import List ZArith QArith Qcanon Bool Lia.
From Verif Require Import Base BaseFacts LoopFacts ModelVec ModelAabb ModelNurbs SpecAabb SpecNurbs SpecCurve ModelRound ModelRoundInsert SpecRound.
From Verif Require Import ProofBspline ProofNurbs ProofInsertion ProofInsertCurve ProofInsertKnot ProofRound ProofRoundBlend.
Import ListNotations.
Open Scope Qc_scope.

Ltac conjs := repeat match goal with |- _ /\ _ => split end.

Section Insert.
Variables (eps : Qc) (fl : nat -> Qc -> option Qc).
Hypothesis RF : rounds eps fl.
Notation u1 := (1 - eps).
Let tp : 0 < u1 := t_pos eps fl RF.
Let tl : u1 <= 1 := t_le1 eps fl RF.

Lemma follows_rnd {A B} (S : A -> B -> Prop) o y (X : res A) g :
  (forall z, rounded u1 y z -> follows S X (g z)) -> follows S X (bind (rnd fl o y) g).
Proof.
  intros K. unfold rnd. destruct (fl o y) as [z|] eqn:E; cbn [bind].
  - apply K. eapply rnd_rounded; eassumption.
  - destruct X; cbn; auto.
Qed.

(** ** one step *)
Lemma follows_alpha u knots span idx leg :
  (forall x, getZ knots (leg + idx) = Ok x -> x <= u) -> (forall x, getZ knots (idx + span + 1) = Ok x -> u < x) ->
  follows (fun a a' => 0 <= a /\ a <= 1 /\ close u1 3 a a') (knot_insertion_alpha u knots span idx leg) (falpha fl u knots span idx leg).
Proof.
  intros HA HB. unfold knot_insertion_alpha, falpha. apply follows_bind_same. intros a Ea. apply follows_bind_same. intros b Eb.
  specialize (HA a Ea). specialize (HB b Eb).
  assert (0 < b - a) as P by qc_lra. assert (b - a <> 0) as NZ by (intros E; rewrite E in P; discriminate P).
  eapply (follows_rnd_close eps fl RF); [apply (close_refl u1 tp tl 0); qc_lra|]. intros n Hn.
  eapply (follows_rnd_close eps fl RF); [apply (close_refl u1 tp tl 0), lt_le, P|]. intros d Hd.
  pose proof (close_pos _ tp _ _ _ Hd P) as D. assert (d <> 0) as NZ' by (intros E; rewrite E in D; discriminate D).
  rewrite !qdiv_ok by assumption. cbn [bind].
  pose proof (close_div u1 tp 1 1 _ _ _ _ Hn Hd P) as Q. cbn [Nat.add] in Q.
  enough (forall X : res Qc, X = rnd fl 0 (n / d) -> follows (fun a a' => 0 <= a /\ a <= 1 /\ close u1 3 a a') (Ok ((u - a) / (b - a))) X) as K by (apply K; reflexivity).
  intros X ->. unfold rnd. destruct (fl 0%nat (n / d)) as [z|] eqn:E; [|reflexivity]. cbn [follows]. conjs.
  - apply mul_nonneg; [qc_lra|]. apply lt_le, Qcinv_pos, P.
  - assert ((b - a) * / (b - a) = 1) as I1 by (apply Qcmult_inv_r; exact NZ). pose proof (lt_le _ _ (Qcinv_pos _ P)) as IP. unfold Qcdiv.
    assert ((u - a) * / (b - a) <= (b - a) * / (b - a)) by (apply Qcmult_le_compat_r; [qc_lra|exact IP]). qc_lra.
  - eapply close_rounded; eauto. eapply rnd_rounded; eauto.
Qed.

Lemma follows_blend k a a' b' x1 y1 x0 y0 M : 0 <= a -> a <= 1 -> close u1 3 a a' -> rounded u1 (1 - a') b' ->
  near u1 k x1 M y1 -> near u1 k x0 M y0 ->
  follows (fun x y => near u1 (8 + k) x M y) (Ok (x1 * a + x0 * (1 - a))) (fblend fl y1 y0 a' b').
Proof.
  intros A0 A1 C R N1 N0. unfold fblend. apply follows_rnd. intros z1 R1. apply follows_rnd. intros z0 R0.
  pose proof (blend_near u1 tp tl k a a' b' x1 y1 x0 y0 z1 z0 M A0 A1 C R N1 N0 R1 R0) as N.
  unfold rnd. destruct (fl 0%nat (z1 + z0)) as [z|] eqn:E; [|reflexivity]. cbn [follows].
  eapply (near_rounded u1 tp tl (7 + k)); [exact N|]. eapply rnd_rounded; eauto.
Qed.

(** ** points and lists *)
Definition v4near (k : nat) (B W : Qc) (a b : vec4) : Prop :=
  near u1 k (wx a) B (wx b) /\ near u1 k (wy a) B (wy b) /\ near u1 k (wz a) B (wz b) /\ near u1 k (ww a) W (ww b).
Lemma v4near_mono k l B W a b : (k <= l)%nat -> v4near k B W a b -> v4near l B W a b.
Proof. intros H (A & C & D & E). unfold v4near. conjs; eapply near_mono; eauto. Qed.

Definition vrows (R : nat -> vec4 -> vec4 -> Prop) (l l' : list vec4) : Prop :=
  length l = length l' /\ forall i, (i < length l)%nat -> R i (nth i l d4) (nth i l' d4).
Lemma vrows_get R l l' i : vrows R l l' -> follows (R i) (get l i) (get l' i).
Proof.
  intros (L & H). destruct (Nat.lt_ge_cases i (length l)) as [G|G].
  - rewrite (get_ok l i d4), (get_ok l' i d4) by lia. apply H, G.
  - unfold get. rewrite (proj2 (nth_error_None l i)) by lia. exact I.
Qed.
Lemma vrows_set R (R' : nat -> vec4 -> vec4 -> Prop) l l' i x x' : vrows R l l' -> (forall j y y', j <> i -> R j y y' -> R' j y y') -> R' i x x' ->
  follows (vrows R') (set_nth l i x) (set_nth l' i x').
Proof.
  intros (L & H) K X. destruct (Nat.lt_ge_cases i (length l)) as [G|G].
  - destruct (set_nth_ok l i x) as (m & E & Lm & Gm); [exact G|]. destruct (set_nth_ok l' i x') as (m' & E' & Lm' & Gm'); [lia|].
    rewrite E, E'. cbn. split; [lia|]. intros j Hj. rewrite Gm, Gm'. destruct (Nat.eqb_spec j i) as [->|N]; [exact X|]. apply K; [exact N|]. apply H. lia.
  - enough (set_nth l i x = UB) as -> by exact I. clear - G. revert i G. induction l as [|y l IH]; intros [|i] G; cbn in *; try reflexivity; [lia|].
    rewrite IH by lia. reflexivity.
Qed.
Lemma vrows_getZ R l l' i : vrows R l l' -> follows (R (Z.to_nat i)) (getZ l i) (getZ l' i).
Proof. intros H. unfold getZ. destruct (i <? 0)%Z; [exact I|]. apply vrows_get, H. Qed.
Lemma vrows_setZ R (R' : nat -> vec4 -> vec4 -> Prop) l l' i x x' : vrows R l l' -> (forall j y y', j <> Z.to_nat i -> R j y y' -> R' j y y') -> R' (Z.to_nat i) x x' ->
  follows (vrows R') (set_nthZ l i x) (set_nthZ l' i x').
Proof. intros H K X. unfold set_nthZ. destruct (i <? 0)%Z; [exact I|]. eapply vrows_set; eauto. Qed.

Section Program.
  Variables (U : list Qc) (P : list vec4) (k p s r n : nat) (t B W : Qc).
  Hypothesis M : mono (knot U).
  Hypothesis T1 : knot U k <= t.
  Hypothesis T2 : t < knot U (S k).
  Hypothesis Hpk : (p <= k)%nat.
  Hypothesis Hkn : (k <= n)%nat.
  Hypothesis HL : length U = (n + p + 2)%nat.
  Hypothesis HP : length P = S n.
  Hypothesis Hp8 : (p <= 8)%nat.
  Hypothesis Hrs : (r + s <= p)%nat.
  Hypothesis HB : forall q, In q P -> bd (wx q) B /\ bd (wy q) B /\ bd (wz q) B /\ bd (ww q) W.

  Lemma near_self m q : In q P -> v4near m B W q q.
  Proof. intros I. destruct (HB q I) as ((? & ?) & (? & ?) & (? & ?) & ? & ?). unfold v4near. conjs; apply near_refl; auto. Qed.
  Lemma near_zero m : v4near m B W d4 d4.
  Proof.
    destruct P as [|q P'] eqn:E; [cbn in HP; lia|]. destruct (HB q) as (A & C & D & F); [left; reflexivity|].
    apply bd_nonneg in A, F. unfold v4near, d4. cbn [wx wy wz ww]. conjs; apply near_refl; auto; qc_lra.
  Qed.

  Lemma inner_step j i temp temp' : (1 <= j <= r)%nat -> (i < p - j - s + 1)%nat ->
    vrows (fun m => v4near (if Nat.ltb m i then 8 * j else 8 * (j - 1)) B W) temp temp' ->
    follows (vrows (fun m => v4near (if Nat.ltb m (S i) then 8 * j else 8 * (j - 1)) B W))
      (insertion_inner t U (Z.of_nat k) (Z.of_nat k - Z.of_nat p + Z.of_nat j) i temp)
      (finsertion_inner fl t U (Z.of_nat k) (Z.of_nat k - Z.of_nat p + Z.of_nat j) i temp').
  Proof.
    intros Hj Hi H. unfold insertion_inner, finsertion_inner.
    eapply follows_bind.
    { apply follows_alpha.
      - intros x E. rewrite (getZ_ok _ _ 0) in E by lia. injection E as <-. rewrite <- knot_nth by lia.
        apply Qcle_trans with (knot U k); [apply M; lia|exact T1].
      - intros x E. rewrite (getZ_ok _ _ 0) in E by lia. injection E as <-. rewrite <- knot_nth by lia.
        apply Qclt_le_trans with (knot U (S k)); [exact T2|apply M; lia]. }
    intros a a' (A0 & A1 & C).
    eapply follows_bind; [apply (vrows_get _ temp temp' (i + 1) H)|]. cbv beta. intros q1 q1' H1.
    eapply follows_bind; [apply (vrows_get _ temp temp' i H)|]. cbv beta. intros q0 q0' H0.
    destruct (Nat.ltb_spec (i + 1) i); [lia|]. destruct (Nat.ltb_spec i i); [lia|].
    destruct H1 as (X1 & Y1 & Z1 & W1), H0 as (X0 & Y0 & Z0 & W0).
    apply follows_rnd. intros b' R.
    assert (forall A (S : A -> list vec4 -> Prop) (F : A) x1 y1 x0 y0 K (g : Qc -> res (list vec4)), near u1 (8 * (j - 1)) x1 K y1 -> near u1 (8 * (j - 1)) x0 K y0 ->
       (forall z, near u1 (8 * j) (x1 * a + x0 * (1 - a)) K z -> follows S (Ok F) (g z)) -> follows S (Ok F) (bind (fblend fl y1 y0 a' b') g)) as STEP.
    { intros A S F x1 y1 x0 y0 K g N1 N0 G. pose proof (follows_blend (8 * (j - 1)) a a' b' x1 y1 x0 y0 K A0 A1 C R N1 N0) as E.
      destruct (fblend fl y1 y0 a' b') as [z|e|]; cbn [follows bind] in *; [|exact E|destruct E].
      apply G. replace (8 * j)%nat with (8 + 8 * (j - 1))%nat by lia. exact E. }
    destruct (Nat.lt_ge_cases i (length temp)) as [G|G].
    2:{ enough (set_nth temp i (v4add (v4scale q1 a) (v4scale q0 (1 - a))) = UB) as -> by exact I.
        clear - G. revert i G. induction temp as [|y l IH]; intros [|i] G; cbn in *; try reflexivity; [lia|]. rewrite IH by lia. reflexivity. }
    destruct (set_nth_ok temp i (v4add (v4scale q1 a) (v4scale q0 (1 - a)))) as (m & E & _). { exact G. }
    rewrite E.
    apply (STEP _ _ _ _ _ _ _ _ _ X1 X0). intros x Hx. apply (STEP _ _ _ _ _ _ _ _ _ Y1 Y0). intros y Hy.
    apply (STEP _ _ _ _ _ _ _ _ _ Z1 Z0). intros z Hz. apply (STEP _ _ _ _ _ _ _ _ _ W1 W0). intros w Hw.
    rewrite <- E. eapply vrows_set; [exact H| |].
    - intros j' y0' y' N K. cbv beta in K. destruct (Nat.ltb_spec j' i), (Nat.ltb_spec j' (S i)); try lia; exact K.
    - cbv beta. destruct (Nat.ltb_spec i (S i)); [|lia]. unfold v4near, v4add, v4scale. cbn [wx wy wz ww]. conjs; assumption.
  Qed.

  Definition written (j i : nat) : Prop := (i <= k - p + (j - 1) \/ k - s + r - (j - 1) <= i)%nat.
  Definition outer_rel (j : nat) (a b : list vec4 * list vec4) : Prop :=
    vrows (fun _ => v4near (8 * (j - 1)) B W) (fst a) (fst b) /\
    vrows (fun i x y => written j i -> v4near (8 * r) B W x y) (snd a) (snd b).

  Lemma outer_step j st st' : (1 <= j <= r)%nat -> outer_rel j st st' ->
    follows (outer_rel (S j)) (insertion_outer p U t r s k j st) (finsertion_outer fl p U t r s k j st').
  Proof.
    destruct st as [temp new], st' as [temp' new']. intros Hj (HT & HN). cbn [fst snd] in HT, HN. unfold insertion_outer, finsertion_outer. cbv zeta.
    destruct (Nat.ltb_spec p (j + s)); [exact I|].
    eapply follows_bind.
    { apply (follows_for (fun i => vrows (fun m => v4near (if Nat.ltb m i then 8 * j else 8 * (j - 1)) B W)) _ _ (p - j - s + 1) 0 temp temp').
      - exact HT.
      - intros i a b _ Hi. apply inner_step; [exact Hj|exact Hi]. }
    cbn [Nat.add]. intros tm tm' HM.
    assert (vrows (fun _ => v4near (8 * j) B W) tm tm') as HM'.
    { destruct HM as (L & K). split; [exact L|]. intros i Hi. specialize (K i Hi). cbv beta in K. eapply v4near_mono; [|exact K]. destruct (Nat.ltb i _); lia. }
    eapply follows_bind; [apply (vrows_get _ _ _ _ HM')|]. intros a0 b0 H0. cbv beta in H0.
    eapply follows_bind.
    { apply (vrows_setZ _ (fun i x y => written j i \/ i = (k - p + j)%nat -> v4near (8 * r) B W x y) _ _ _ _ _ HN).
      - intros i x y N K Wr. apply K. destruct Wr as [Wr|Wr]; [exact Wr|]. exfalso. apply N. lia.
      - intros _. eapply v4near_mono; [|exact H0]. lia. }
    intros n1 n1' HN1.
    eapply follows_bind; [apply (vrows_get _ _ _ _ HM')|]. intros a1 b1 H1. cbv beta in H1.
    eapply follows_bind.
    { apply (vrows_setZ _ (fun i x y => written (S j) i -> v4near (8 * r) B W x y) _ _ _ _ _ HN1).
      - intros i x y N K Wr. apply K. unfold written in *. lia.
      - intros _. eapply v4near_mono; [|exact H1]. lia. }
    intros n2 n2' HN2. cbn [follows]. split; cbn [fst snd]; [|exact HN2]. replace (S j - 1)%nat with j by lia. exact HM'.
  Qed.

  Lemma insertion_follows new0 new0' :
    follows (vrows (fun _ => v4near (8 * r) B W)) (knot_insertion p U P t r s k new0) (fknot_insertion fl p U P t r s k new0').
  Proof.
    unfold knot_insertion, fknot_insertion. cbv zeta.
    set (new1 := resize new0 (length P + r)). set (new1' := resize new0' (length P + r)).
    assert (length new1 = (S n + r)%nat) as L1 by (unfold new1; rewrite resize_length; lia).
    assert (length new1' = (S n + r)%nat) as L1' by (unfold new1'; rewrite resize_length; lia).
    replace (Z.of_nat k - Z.of_nat p + 1)%Z with (Z.of_nat (k - p + 1)) by lia.
    destruct (copy_range_ok P 0 (k - p + 1) new1 0) as (new2 & E2 & L2 & G2); [lia|lia|].
    destruct (copy_range_ok P 0 (k - p + 1) new1' 0) as (new2' & E2' & L2' & G2'); [lia|lia|].
    change (Z.of_nat 0) with 0%Z in E2, E2'. rewrite E2, E2'. cbn [bind].
    replace (Z.of_nat k - Z.of_nat s + Z.of_nat r)%Z with (Z.of_nat (k - s + r)) by lia.
    replace (Z.of_nat (length P) - (Z.of_nat k - Z.of_nat s))%Z with (Z.of_nat (S n - (k - s))) by lia.
    replace (Z.of_nat k - Z.of_nat s)%Z with (Z.of_nat (k - s)) by lia.
    destruct (copy_range_ok P (k - s) (S n - (k - s)) new2 (k - s + r)) as (new3 & E3 & L3 & G3); [lia|lia|].
    destruct (copy_range_ok P (k - s) (S n - (k - s)) new2' (k - s + r)) as (new3' & E3' & L3' & G3'); [lia|lia|].
    rewrite E3, E3'. cbn [bind].
    replace (Z.of_nat p - Z.of_nat s + 1)%Z with (Z.of_nat (p - s + 1)) by lia.
    replace (Z.of_nat k - Z.of_nat p)%Z with (Z.of_nat (k - p)) by lia.
    destruct (copy_range_ok P (k - p) (p - s + 1) (repeat v4zero DEG_STACK_SIZE) 0) as (temp0 & E4 & L4 & G4); [lia|rewrite repeat_length; unfold DEG_STACK_SIZE; lia|].
    change (Z.of_nat 0) with 0%Z in E4. rewrite E4. cbn [bind].
    eapply follows_bind.
    { apply (follows_for outer_rel _ _ r 1 (temp0, new3) (temp0, new3')).
      - split; cbn [fst snd].
        + split; [reflexivity|]. intros i Hi. rewrite G4. destruct (Nat.leb_spec 0 i); [|lia]. cbn [andb].
          destruct (Nat.ltb_spec i (0 + (p - s + 1))).
          * apply near_self, nth_In. lia.
          * change d4 with v4zero. rewrite nth_repeat. exact (near_zero _).
        + split; [lia|]. intros i Hi [Wr|Wr].
          * rewrite G3, G3'. destruct (Nat.leb_spec (k - s + r) i); cbn [andb].
            -- destruct (Nat.ltb_spec i (k - s + r + (S n - (k - s)))); [|lia]. apply near_self, nth_In. lia.
            -- rewrite G2, G2'. destruct (Nat.leb_spec 0 i); [|lia]. destruct (Nat.ltb_spec i (0 + (k - p + 1))); [|lia]. cbn [andb]. apply near_self, nth_In. lia.
          * rewrite G3, G3'. destruct (Nat.leb_spec (k - s + r) i); [|lia]. destruct (Nat.ltb_spec i (k - s + r + (S n - (k - s)))); [|lia]. cbn [andb]. apply near_self, nth_In. lia.
      - intros j a b J1 J2. apply outer_step. lia. }
    intros [temp new] [temp' new'] (HT & HN). cbn [fst snd] in HT, HN. replace (1 + r - 1)%nat with r in HT by lia.
    eapply follows_mono; [|apply (follows_for (fun m => vrows (fun i x y => (i <= k - p + r + m \/ k - s <= i)%nat -> v4near (8 * r) B W x y)))].
    - intros l l' (L & K). split; [exact L|]. intros i Hi. apply K; [exact Hi|]. lia.
    - destruct HN as (L & K). split; [exact L|]. intros i Hi Wr. apply K; [exact Hi|]. unfold written. lia.
    - intros i a b _ Hi H. eapply follows_bind; [apply (vrows_getZ _ _ _ _ HT)|]. cbv beta. intros x y Hxy.
      eapply vrows_setZ; [exact H| |].
      + intros m v v' N K Wr. apply K. lia.
      + intros _. exact Hxy.
  Qed.
End Program.
End Insert.
