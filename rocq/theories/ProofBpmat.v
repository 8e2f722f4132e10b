(** Gauss-Jordan elimination with row exchanges succeeds on a matrix all of whose
    reduced rows keep a large enough pivot, and a lower bound on products of
    distances between distinct integers. *)
From Coq Require Import List ZArith QArith Qcanon Bool Lia Lqa Field.
From Verif Require Import Base BaseFacts LoopFacts ModelNurbs ModelBinom ModelNumeric SpecNurbs SpecNumeric ProofBspline ProofIntegrate ProofMatrix.
Import ListNotations.
Open Scope Qc_scope.

(** the pivot search finds an entry at least as large as the first *)
Lemma pivot_max a n c F i : rep a n c F -> (i < n)%nat -> (i < c)%nat ->
  exists p, md_pivot a n i = Ok p /\ (i <= p < n)%nat /\ Qcabs (F i i) <= Qcabs (F p i).
Proof.
  intros Ha Hi Hc. unfold md_pivot.
  destruct (for_up_inv (fun _ p => (i <= p < n)%nat /\ Qcabs (F i i) <= Qcabs (F p i))
    (fun j pivot => x <- md_get a j i ;; y <- md_get a pivot i ;; Ok (if Qcabs y <? Qcabs x then j else pivot)) (n - (i + 1)) (i + 1) i) as (p & E & R); [split; [lia|apply Qcle_refl]| |eauto].
  intros j p Hj1 Hj2 (Hp & Hm). rewrite !(rep_get _ _ _ _ _ _ Ha) by lia. cbn [bind]. eexists. split; [reflexivity|].
  destruct (Qcltb_spec (Qcabs (F p i)) (Qcabs (F j i))) as [L|L]; split; try lia; [|assumption].
  eapply Qcle_trans; [exact Hm|apply Qclt_le_weak, L].
Qed.

Section Gauss.
Variable n : nat.
Variable A : nat -> nat -> Qc.
(** rho numbers the rows of A; the row at position pos is its row of A plus a
    combination of the rows already used *)
Definition combo (i : nat) (rho : nat -> nat) (F : nat -> nat -> Qc) (pos : nat) : Prop :=
  exists w : nat -> Qc, forall k, (k < n)%nat -> F pos k = (if Nat.ltb pos i then 0 else A (rho pos) k) + qsum (fun s => w s * A (rho s) k) i.
Definition numbering (rho : nat -> nat) : Prop :=
  (forall a, (a < n)%nat -> (rho a < n)%nat) /\ forall a b, (a < n)%nat -> (b < n)%nat -> rho a = rho b -> a = b.
Definition mixed (i : nat) (F : nat -> nat -> Qc) : Prop := exists rho, numbering rho /\ forall pos, (pos < n)%nat -> combo i rho F pos.
Hypothesis big : forall i rho row w, (i < n)%nat -> numbering rho ->
  (forall k, (k < n)%nat -> row k = A (rho i) k + qsum (fun s => w s * A (rho s) k) i) -> (forall k, (k < i)%nat -> row k = 0) -> lit_1em10 <= Qcabs (row i).

Lemma turn_mixed i a F : rep a n (2 * n) F -> (i < n)%nat -> (forall j r, (j < i)%nat -> (r < n)%nat -> F r j = delta r j) -> mixed i F ->
  exists m G, md_turn n n i a = Ok m /\ rep m n (2 * n) G /\ (forall j r, (j < S i)%nat -> (r < n)%nat -> G r j = delta r j) /\ mixed (S i) G.
Proof.
  intros Ha Hi Hc (rho & NU & MX). pose proof NU as (RG & INJ).
  pose proof (turn_ok n i a F Ha Hi Hc) as TO. unfold md_turn in *.
  destruct (pivot_max a n (2 * n) F i Ha Hi ltac:(lia)) as (p & E & Hp & Hm). rewrite E in *. cbn [bind] in *. clear E.
  destruct (swap_rep a n F i p Ha Hi ltac:(lia)) as (m1 & E1 & R1). rewrite E1 in *. cbn [bind] in *.
  rewrite (rep_get _ _ _ _ _ _ R1) in * by lia. cbn [bind] in *. rewrite Nat.eqb_refl in *.
  assert (lit_1em10 <= Qcabs (F p i)) as PB.
  { eapply Qcle_trans; [|exact Hm]. destruct (MX i Hi) as (w & W). rewrite Nat.ltb_irrefl in W. apply (big i rho (F i) w Hi NU W).
    intros k Hk. rewrite Hc by lia. unfold delta. destruct (Nat.eqb_spec i k); [lia|reflexivity]. }
  destruct (Qcltb_spec (Qcabs (F p i)) lit_1em10) as [T|T]; [exfalso; apply (Qcle_not_lt _ _ PB T)|].
  assert (F p i <> 0) as NZ. { intros Z. apply T. rewrite Z. vm_compute. reflexivity. }
  destruct (scale_rep m1 n _ i (F p i) R1 Hi NZ) as (m2 & E2 & R2). rewrite E2 in *. cbn [bind] in *.
  destruct (eliminate_rep m2 n _ i R2 Hi) as (m3 & E3 & R3). rewrite E3 in *.
  destruct TO as [TO|(m & G & EM & RM & CM & _)]; [discriminate|]. apply (f_equal (fun r => match r with Ok x => x | _ => m end)) in EM. subst m.
  exists m3. eexists. split; [reflexivity|]. split; [exact R3|]. split.
  { intros j r Hj Hr. pose proof (rep_get _ _ _ _ r j R3 Hr ltac:(lia)) as X1. pose proof (rep_get _ _ _ _ r j RM Hr ltac:(lia)) as X2.
    rewrite X1 in X2. apply (f_equal (fun r => match r with Ok x => x | _ => 0 end)) in X2. rewrite X2. apply CM; assumption. }
  exists (fun a => rho (if Nat.eqb a i then p else if Nat.eqb a p then i else a)). split.
  - split.
    + intros b Hb. apply RG. destruct (Nat.eqb b i), (Nat.eqb b p); lia.
    + intros b c Hb Hcc Q. apply INJ in Q; [|destruct (Nat.eqb b i), (Nat.eqb b p); lia|destruct (Nat.eqb c i), (Nat.eqb c p); lia].
      destruct (Nat.eqb_spec b i), (Nat.eqb_spec b p), (Nat.eqb_spec c i), (Nat.eqb_spec c p); lia.
  - destruct (MX p ltac:(lia)) as (wp & WP). destruct (Nat.ltb_spec p i) as [|_] in WP; [lia|].
    assert (forall s, (s < i)%nat -> rho (if Nat.eqb s i then p else if Nat.eqb s p then i else s) = rho s) as RS.
    { intros s Hs. destruct (Nat.eqb_spec s i); [lia|]. destruct (Nat.eqb_spec s p); [lia|]. reflexivity. }
    assert (forall (v : nat -> Qc) k, qsum (fun s => v s * A (rho (if Nat.eqb s i then p else if Nat.eqb s p then i else s)) k) i = qsum (fun s => v s * A (rho s) k) i) as RQ.
    { intros v k. apply qsum_ext. intros s Hs. rewrite RS by exact Hs. reflexivity. }
    intros r Hr. unfold combo. cbn beta. rewrite Nat.eqb_refl. destruct (Nat.eqb_spec r i) as [->|NR].
    + exists (fun s => if Nat.eqb s i then / F p i else wp s * / F p i). intros k Hk. destruct (Nat.ltb_spec i (S i)); [|lia].
      cbn [qsum]. rewrite !Nat.eqb_refl, WP by exact Hk.
      rewrite (qsum_ext (fun s => (if Nat.eqb s i then _ else _) * _) (fun s => / F p i * (wp s * A (rho s) k))). 2:{ intros s Hs. rewrite RS by exact Hs. destruct (Nat.eqb_spec s i); [lia|]. ring. }
      rewrite qsum_scale. unfold Qcdiv. ring.
    + set (F1 := if Nat.eqb r p then F i else F r).
      assert (exists w, forall k, (k < n)%nat -> F1 k = (if Nat.ltb r (S i) then 0 else A (rho (if Nat.eqb r p then i else r)) k) + qsum (fun s => w s * A (rho s) k) i) as (w & W).
      { unfold F1. destruct (Nat.eqb_spec r p) as [->|NP].
        - destruct (MX i Hi) as (w & W). exists w. intros k Hk. rewrite W by exact Hk. rewrite Nat.ltb_irrefl. destruct (Nat.ltb_spec p (S i)); [lia|reflexivity].
        - destruct (MX r Hr) as (w & W). exists w. intros k Hk. rewrite W by exact Hk. destruct (Nat.ltb_spec r i), (Nat.ltb_spec r (S i)); try lia; reflexivity. }
      exists (fun s => if Nat.eqb s i then - (F1 i * / F p i) else w s - F1 i * / F p i * wp s). intros k Hk.
      replace ((if Nat.eqb r p then F i k else F r k)) with (F1 k) by (unfold F1; destruct (Nat.eqb r p); reflexivity).
      replace ((if Nat.eqb r p then F i i else F r i)) with (F1 i) by (unfold F1; destruct (Nat.eqb r p); reflexivity).
      cbn [qsum]. rewrite !Nat.eqb_refl. rewrite WP by exact Hk. rewrite (W k Hk).
      rewrite (qsum_ext (fun s => (if Nat.eqb s i then _ else _) * _) (fun s => w s * A (rho s) k + (- (F1 i * / F p i)) * (wp s * A (rho s) k))).
      2:{ intros s Hs. rewrite RS by exact Hs. destruct (Nat.eqb_spec s i); [lia|]. ring. }
      rewrite qsum_add, qsum_scale. generalize (F1 i). intros f. unfold Qcdiv. ring.
Qed.
Lemma turns_mixed cnt : forall i a F, rep a n (2 * n) F -> (i + cnt <= n)%nat -> (forall j r, (j < i)%nat -> (r < n)%nat -> F r j = delta r j) -> mixed i F ->
  exists m, for_up cnt i (md_turn n n) a = Ok m.
Proof.
  induction cnt; intros i a F Ha Hi Hc M; cbn [for_up]; [eexists; reflexivity|].
  destruct (turn_mixed i a F Ha ltac:(lia) Hc M) as (m & G & -> & R & C & M'). cbn [bind]. apply (IHcnt (S i) m G R ltac:(lia) C M').
Qed.
Lemma gauss_succeeds a : rep a n n A -> md_inverse a <> Throw ERuntime.
Proof.
  intros Ha E. destruct (md_inverse_rep a n A Ha) as [_|(m & B & E' & _)]; [|congruence]. pose proof Ha as (A1 & A2 & _).
  unfold md_inverse in E. rewrite A1, A2, Nat.eqb_refl in E. cbn [negb] in E.
  destruct (augment_rep a n A Ha) as (m0 & E0 & R0). rewrite E0 in E. cbn [bind] in E.
  destruct (turns_mixed n 0 m0 _ R0 ltac:(lia) ltac:(intros; lia)) as (m1 & E1).
  - exists (fun r => r). split; [split; auto|]. intros pos Hp. exists (fun _ => 0). intros k Hk. cbn [qsum]. replace (Nat.ltb pos 0) with false by (symmetry; apply Nat.ltb_ge; lia).
    destruct (Nat.ltb_spec k n); [ring|lia].
  - rewrite E1 in E. cbn [bind] in E.
    destruct (turns_ok n n 0 m0 _ R0 ltac:(lia) ltac:(intros; lia)) as [X|(m2 & G & E2 & R2 & _)]; [congruence|]. assert (m2 = m1) by congruence. subst m2.
    destruct (for_up_inv (fun i m => rep m n n (fun a b => if Nat.ltb a i then G a (b + n)%nat else 0))
    (fun i r => for_up n 0 (fun j r => x <- md_get m1 i (j + n) ;; md_set r i j x) r) n 0 (md_zero n n)) as (m & E3 & R).
    + eapply rep_ext; [|apply rep_zero]. upds.
    + intros i m _ Hi Hm.
      destruct (row_loop (fun j r => x <- md_get m1 i (j + n) ;; md_set r i j x) n n (fun a b => if Nat.ltb a i then G a (b + n)%nat else 0) (fun b => G i (b + n)%nat) i n m Hi (le_n n)) as (m' & E4 & R); try assumption.
      * intros j m2 Hj Hm2. rewrite (rep_get _ _ _ _ _ _ R2) by lia. cbn [bind]. apply rep_set; [assumption|lia|lia].
      * exists m'. split; [exact E4|]. revert R. apply rep_ext. upds.
    + rewrite E3 in E. discriminate.
Qed.
End Gauss.

(** ** distances between distinct integers *)
Definition zprod (l : list Z) : Z := fold_right Z.mul 1%Z l.
Fixpoint zfact (n : nat) : Z := match n with O => 1 | S k => Z.of_nat (S k) * zfact k end.
Lemma zfact_pos n : (0 < zfact n)%Z. Proof. induction n; cbn [zfact]; lia. Qed.
Lemma zprod_app a b : zprod (a ++ b) = (zprod a * zprod b)%Z.
Proof. induction a as [|x a IH]; cbn [app]; unfold zprod in *; cbn [fold_right]; [ring|]. rewrite IH. ring. Qed.
Lemma max_abs (l : list Z) : l <> [] -> exists m, In m l /\ forall x, In x l -> (Z.abs x <= Z.abs m)%Z.
Proof.
  induction l as [|a l IH]; [congruence|]. intros _. destruct l as [|b l].
  - exists a. split; [left; reflexivity|]. intros x [->|[]]. lia.
  - destruct IH as (m & Hm & M); [discriminate|]. destruct (Z_le_gt_dec (Z.abs a) (Z.abs m)) as [L|L].
    + exists m. split; [right; exact Hm|]. intros x [->|Hx]; [exact L|apply M, Hx].
    + exists a. split; [left; reflexivity|]. intros x [->|Hx]; [lia|]. specialize (M x Hx). lia.
Qed.
Lemma distinct_count (l : list Z) (M : nat) : NoDup l -> ~ In 0%Z l -> (forall x, In x l -> (Z.abs x <= Z.of_nat M)%Z) -> (length l <= 2 * M)%nat.
Proof.
  intros ND NZ B. transitivity (length (map Z.of_nat (seq 1 M) ++ map (fun k => (- Z.of_nat k)%Z) (seq 1 M))).
  - apply NoDup_incl_length; [exact ND|]. intros x Hx. specialize (B x Hx). apply in_or_app. assert (x <> 0%Z) by (intros ->; contradiction).
    destruct (Z_lt_ge_dec x 0); [right|left]; apply in_map_iff; exists (Z.to_nat (Z.abs x)); (split; [lia|]); apply in_seq; lia.
  - rewrite app_length, !map_length, seq_length. lia.
Qed.
Lemma distance_product : forall n l, length l = n -> NoDup l -> ~ In 0%Z l -> (zfact n <= 2 ^ Z.of_nat n * Z.abs (zprod l))%Z.
Proof.
  induction n; intros l L ND NZ.
  - destruct l; [|discriminate]. cbn. lia.
  - destruct (max_abs l) as (m & Hm & M); [destruct l; discriminate|].
    assert (S n <= 2 * Z.to_nat (Z.abs m))%nat as C by (rewrite <- L; apply distinct_count; [exact ND|exact NZ|intros x Hx; specialize (M x Hx); lia]).
    destruct (in_split _ _ Hm) as (l1 & l2 & ->). rewrite app_length in L. cbn [length] in L.
    pose proof (NoDup_remove_1 _ _ _ ND) as ND'.
    assert (~ In 0%Z (l1 ++ l2)) as NZ' by (intros X; apply NZ; apply in_app_or in X; apply in_or_app; destruct X; [left|right; right]; assumption).
    specialize (IHn (l1 ++ l2) ltac:(rewrite app_length; lia) ND' NZ').
    assert (zprod (l1 ++ m :: l2) = m * zprod (l1 ++ l2))%Z as -> by (rewrite !zprod_app; cbn [zprod fold_right]; fold (zprod l2); ring).
    rewrite Z.abs_mul. cbn [zfact]. rewrite Nat2Z.inj_succ, Z.pow_succ_r by lia.
    pose proof (zfact_pos n). set (P := (2 ^ Z.of_nat n * Z.abs (zprod (l1 ++ l2)))%Z) in *.
    replace (2 * 2 ^ Z.of_nat n * (Z.abs m * Z.abs (zprod (l1 ++ l2))))%Z with (2 * Z.abs m * P)%Z by (unfold P; ring).
    apply Z.mul_le_mono_nonneg; lia.
Qed.
