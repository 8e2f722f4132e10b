(** The knot insertion program computes the control points that knot insertion
    theory asks for. *)
From Coq Require Import List ZArith QArith Qcanon Bool Lia Lqa Field.
From Verif Require Import Base BaseFacts LoopFacts ModelVec ModelAabb ModelNurbs SpecNurbs ProofBspline ProofInsertion ProofNurbs.
Import ListNotations.
Open Scope Qc_scope.

(** knots with q copies of t behind index k *)
Definition insr (U : nat -> Qc) (k : nat) (t : Qc) (q i : nat) : Qc :=
  if Nat.leb i k then U i else if Nat.leb i (k + q) then t else U (i - q)%nat.

Lemma insr_lo U k t q i : (i <= k)%nat -> insr U k t q i = U i.
Proof. intros. unfold insr. destruct (Nat.leb_spec i k); [reflexivity|lia]. Qed.
Lemma insr_mid U k t q i : (k < i <= k + q)%nat -> insr U k t q i = t.
Proof. intros. unfold insr. destruct (Nat.leb_spec i k); [lia|]. destruct (Nat.leb_spec i (k + q)); [reflexivity|lia]. Qed.
Lemma insr_hi U k t q i j : (k + q < i)%nat -> j = (i - q)%nat -> insr U k t q i = U j.
Proof. intros H ->. unfold insr. destruct (Nat.leb_spec i k); [lia|]. destruct (Nat.leb_spec i (k + q)); [lia|reflexivity]. Qed.

Lemma insr_0 U k t i : insr U k t 0 i = U i.
Proof.
  destruct (Nat.le_gt_cases i k); [apply insr_lo; assumption|]. apply insr_hi; lia.
Qed.
Lemma insr_S U k t q i : insr U k t (S q) i = insf (insr U k t q) (k + q) t i.
Proof.
  destruct (Nat.le_gt_cases i k) as [H|H].
  { rewrite insr_lo by assumption. rewrite insf_lo by lia. rewrite insr_lo by assumption. reflexivity. }
  destruct (Nat.le_gt_cases i (k + q)) as [H2|H2].
  { rewrite insr_mid by lia. rewrite insf_lo by lia. rewrite insr_mid by lia. reflexivity. }
  destruct (Nat.eq_dec i (S (k + q))) as [E|E].
  { rewrite insr_mid by lia. rewrite insf_at by lia. reflexivity. }
  rewrite (insr_hi _ _ _ (S q) i (i - S q)) by lia. rewrite (insf_hi _ _ _ i (i - 1)) by lia.
  symmetry. apply insr_hi; lia.
Qed.

Lemma bsp_ext U V s p i u : (forall j, U j = V j) -> bsp U s p i u = bsp V s p i u.
Proof. intros E. revert i. induction p; intros i; cbn [bsp]; [reflexivity|]. rewrite !E, !IHp. reflexivity. Qed.
Lemma mono_ext U V : (forall j, U j = V j) -> mono U -> mono V.
Proof. intros E M i j H. rewrite <- !E. apply M. assumption. Qed.
Lemma is_span_ext U V n s u : (forall j, U j = V j) -> is_span U n s u -> is_span V n s u.
Proof. intros E. unfold is_span. rewrite !E. auto. Qed.
Lemma span_ok_ext U V s u : (forall j, U j = V j) -> span_ok U s u -> span_ok V s u.
Proof. intros E. unfold span_ok. rewrite !E. auto. Qed.

(** control points after q insertions *)
Fixpoint pq (U : nat -> Qc) (k p : nat) (t : Qc) (P : nat -> Qc) (q i : nat) : Qc :=
  match q with
  | O => P i
  | S q' => let a := al (insr U k t q') (k + q') t p i in
            a * pq U k p t P q' i + (1 - a) * pq U k p t P q' (i - 1)
  end.

Section Insr.
  Variables (U : nat -> Qc) (k : nat) (t : Qc).
  Hypothesis M : mono U.
  Hypothesis T1 : U k <= t.
  Hypothesis T2 : t < U (S k).

  Lemma insr_le q : insr U k t q (k + q) <= t /\ t < insr U k t q (S (k + q)).
  Proof.
    split.
    - destruct (Nat.eq_dec q 0) as [->|H]; [rewrite Nat.add_0_r, insr_lo by lia; assumption|].
      rewrite insr_mid by lia. apply Qcle_refl.
    - rewrite (insr_hi _ _ _ q _ (S k)) by lia. assumption.
  Qed.

  Lemma insr_mono q : mono (insr U k t q).
  Proof.
    induction q.
    - apply (mono_ext U); [intros; symmetry; apply insr_0|assumption].
    - eapply mono_ext; [intros; symmetry; apply insr_S|]. destruct (insr_le q).
      apply insf_mono; [assumption|assumption|qc_lra].
  Qed.

  (** inserting q times: the new span of u *)
  Lemma insr_span q n s u : (k <= n)%nat -> is_span U n s u -> span_ok U s u ->
    exists s', is_span (insr U k t q) (n + q) s' u /\ span_ok (insr U k t q) s' u /\
      forall p P, (p <= k)%nat ->
      qsum (fun i => bsp U s p i u * P i) (S n) =
      qsum (fun i => bsp (insr U k t q) s' p i u * pq U k p t P q i) (S (n + q)).
  Proof.
    intros Hk IS SO. induction q.
    - exists s. rewrite Nat.add_0_r. split; [|split].
      + eapply is_span_ext; [intros; symmetry; apply insr_0|assumption].
      + eapply span_ok_ext; [intros; symmetry; apply insr_0|assumption].
      + intros p P Hp. apply qsum_ext. intros i _. cbn [pq]. f_equal. apply bsp_ext. intros; symmetry; apply insr_0.
    - destruct IHq as (s' & A & B & C). destruct (insr_le q) as [L1 L2].
      exists (ins_span s' (k + q) t u). split; [|split].
      + rewrite Nat.add_succ_r. eapply is_span_ext; [intros; symmetry; apply insr_S|].
        apply ins_span_is; [apply insr_mono|assumption|assumption|assumption|lia].
      + eapply span_ok_ext; [intros; symmetry; apply insr_S|].
        apply ins_span_ok; [apply insr_mono|assumption|assumption|assumption].
      + intros p P Hp. rewrite (C p P) by assumption. rewrite Nat.add_succ_r.
        rewrite (insert_sum (insr U k t q) (k + q) s' t u (insr_mono q) B L1 L2 p (n + q)
                  (pq U k p t P q) (pq U k p t P (S q))).
        * apply qsum_ext. intros i _. f_equal. symmetry. apply bsp_ext. intros; apply insr_S.
        * lia.
        * lia.
        * cbn [pq]. cbv zeta. rewrite al_lo by lia. ring.
        * intros i Hi. reflexivity.
        * cbn [pq]. cbv zeta. rewrite al_hi by lia. replace (S (n + q) - 1)%nat with (n + q)%nat by lia. ring.
  Qed.

  Section Shape.
  Variables (p s : nat) (P : nat -> Qc).
  Hypothesis Hp : (p <= k)%nat.
  Hypothesis Hs : forall i, (k - s < i <= k)%nat -> U i = t.
  Notation pp := (pq U k p t P).

  Lemma pq_left1 q i : (i + p <= k + q)%nat -> pp (S q) i = pp q i.
  Proof. intros. cbn [pq]. cbv zeta. rewrite al_lo by lia. ring. Qed.
  Lemma pq_left q d i : (i + p <= k + q)%nat -> pp (q + d) i = pp q i.
  Proof.
    intros. induction d; [rewrite Nat.add_0_r; reflexivity|].
    rewrite Nat.add_succ_r, pq_left1 by lia. assumption.
  Qed.

  Lemma pq_right1 q i : (q + s < p)%nat -> (k - s < i)%nat -> pp (S q) i = pp q (i - 1).
  Proof.
    intros H1 H2. cbn [pq]. cbv zeta.
    assert (al (insr U k t q) (k + q) t p i = 0) as ->; [|ring].
    destruct (Nat.le_gt_cases i (k + q)) as [H|H]; [|apply al_hi; lia].
    rewrite (al_mid _ _ _ p i (i + p)) by lia.
    assert (insr U k t q i = t) as ->.
    { destruct (Nat.le_gt_cases i k); [rewrite insr_lo by lia; apply Hs; lia|apply insr_mid; lia]. }
    unfold Qcdiv. ring.
  Qed.
  Lemma pq_right q d i : (q + d + s <= p)%nat -> (k - s <= i)%nat -> pp (q + d) (i + d) = pp q i.
  Proof.
    intros H1 H2. induction d; [rewrite !Nat.add_0_r; reflexivity|].
    rewrite !Nat.add_succ_r. rewrite pq_right1 by lia. replace (S (i + d) - 1)%nat with (i + d)%nat by lia.
    apply IHd. lia.
  Qed.

  Lemma pq_mid q i : (k + q < i + p)%nat -> (i <= k - s)%nat ->
    let a := (t - U i) / (U (i + p - q)%nat - U i) in
    pp (S q) i = pp q i * a + pp q (i - 1) * (1 - a).
  Proof.
    intros H1 H2 a. cbn [pq]. cbv zeta. rewrite (al_mid _ _ _ p i (i + p)) by lia.
    rewrite (insr_lo _ _ _ q i) by lia. rewrite (insr_hi _ _ _ q (i + p) (i + p - q)) by lia.
    fold a. ring.
  Qed.
  End Shape.
End Insr.

Lemma pq_const U k p t c q : forall i, pq U k p t (fun _ => c) q i = c.
Proof. induction q; intros i; cbn [pq]; [reflexivity|]. rewrite !IHq. ring. Qed.

Lemma pq_ext U V k p t P Q q i : (forall j, U j = V j) -> (forall j, (j <= i)%nat -> P j = Q j) -> pq U k p t P q i = pq V k p t Q q i.
Proof.
  intros E. revert i. induction q; intros i H; cbn [pq]; [apply H; lia|].
  cbv zeta. rewrite !IHq by (intros; apply H; lia).
  unfold al, insr. rewrite !E. reflexivity.
Qed.

(** ** copy_range and resize *)
Lemma copy_range_ok {A} (src : list A) f len (dst : list A) at_ :
  (f + len <= length src)%nat -> (at_ + len <= length dst)%nat ->
  exists l, copy_range src (Z.of_nat f) (Z.of_nat len) dst (Z.of_nat at_) = Ok l /\ length l = length dst /\
    forall i d, nth i l d = if (Nat.leb at_ i && Nat.ltb i (at_ + len))%bool then nth (f + (i - at_)) src d else nth i dst d.
Proof.
  intros H1 H2. unfold copy_range.
  assert (((0 <=? Z.of_nat f) && (0 <=? Z.of_nat len) && (0 <=? Z.of_nat at_) &&
     (Z.of_nat f + Z.of_nat len <=? Z.of_nat (length src)) && (Z.of_nat at_ + Z.of_nat len <=? Z.of_nat (length dst)))%Z = true) as ->.
  { repeat (apply andb_true_intro; split); apply Z.leb_le; lia. }
  eexists. split; [reflexivity|]. rewrite !Nat2Z.id. replace (Z.to_nat (Z.of_nat at_ + Z.of_nat len)) with (at_ + len)%nat by lia.
  split.
  - rewrite !app_length, !firstn_length, !skipn_length. lia.
  - intros i d. destruct (Nat.leb_spec at_ i) as [L|L]; cbn [andb].
    + rewrite app_nth2 by (rewrite firstn_length; lia). rewrite firstn_length.
      replace (i - Nat.min at_ (length dst))%nat with (i - at_)%nat by lia.
      destruct (Nat.ltb_spec i (at_ + len)) as [L2|L2].
      * rewrite app_nth1 by (rewrite firstn_length, skipn_length; lia).
        rewrite nth_firstn_lt by lia. rewrite nth_skipn_add. reflexivity.
      * rewrite app_nth2 by (rewrite firstn_length, skipn_length; lia).
        rewrite firstn_length, skipn_length. rewrite nth_skipn_add. f_equal. lia.
    + rewrite app_nth1 by (rewrite firstn_length; lia). rewrite nth_firstn_lt by lia. reflexivity.
Qed.

Lemma resize_length l n : length (resize l n) = n.
Proof. unfold resize. rewrite firstn_length, app_length, repeat_length. lia. Qed.

Definition d4 : vec4 := V4 0 0 0 0.

(** a component of vec4 *)
Definition comp4 (c : vec4 -> Qc) : Prop := c = wx \/ c = wy \/ c = wz \/ c = ww.

Lemma comp4_blend c a b k l : comp4 c -> c (v4add (v4scale a k) (v4scale b l)) = c a * k + c b * l.
Proof. intros [-> | [-> | [-> | ->]]]; reflexivity. Qed.

Section Program.
  Variables (U : list Qc) (P : list vec4) (k p s r n : nat) (t : Qc).
  Hypothesis M : mono (knot U).
  Hypothesis T1 : knot U k <= t.
  Hypothesis T2 : t < knot U (S k).
  Hypothesis Hpk : (p <= k)%nat.
  Hypothesis Hkn : (k <= n)%nat.
  Hypothesis HL : length U = (n + p + 2)%nat.
  Hypothesis HP : length P = S n.
  Hypothesis Hp8 : (p <= 8)%nat.
  Hypothesis Hrs : (r + s <= p)%nat.
  Hypothesis Hs : forall i, (k - s < i <= k)%nat -> knot U i = t.

  Let pp (c : vec4 -> Qc) := pq (knot U) k p t (fun i => c (nth i P d4)).

  Lemma insertion_inner_loop j temp : (1 <= j <= r)%nat -> length temp = 9%nat ->
    (forall i, (i <= p - (j - 1) - s)%nat -> forall c, comp4 c -> c (nth i temp d4) = pp c (j - 1) (k - p + (j - 1) + i)) ->
    exists temp', for_up (p - j - s + 1) 0 (insertion_inner t U (Z.of_nat k) (Z.of_nat k - Z.of_nat p + Z.of_nat j)) temp = Ok temp' /\
      length temp' = 9%nat /\
      (forall i, (i <= p - j - s)%nat -> forall c, comp4 c -> c (nth i temp' d4) = pp c j (k - p + j + i)).
  Proof.
    intros Hj HLt HT.
    destruct (for_up_inv (fun m (st : list vec4) => length st = 9%nat /\
       (forall i, (i < m)%nat -> forall c, comp4 c -> c (nth i st d4) = pp c j (k - p + j + i)) /\
       (forall i, (m <= i)%nat -> nth i st d4 = nth i temp d4))
       (insertion_inner t U (Z.of_nat k) (Z.of_nat k - Z.of_nat p + Z.of_nat j)) (p - j - s + 1) 0 temp) as (temp' & E & Q).
    - split; [assumption|]. split; [intros; lia|]. auto.
    - intros m st _ Hm (L & A & B). unfold insertion_inner, knot_insertion_alpha.
      rewrite (getZ_ok _ _ 0) by lia. cbn [bind]. rewrite (getZ_ok _ _ 0) by lia. cbn [bind].
      rewrite <- !knot_nth by lia.
      replace (Z.to_nat (Z.of_nat k - Z.of_nat p + Z.of_nat j + Z.of_nat m)) with (k - p + j + m)%nat by lia.
      replace (Z.to_nat (Z.of_nat m + Z.of_nat k + 1)) with (k + m + 1)%nat by lia.
      assert (knot U (k - p + j + m) <= knot U k) by (apply M; lia).
      assert (knot U (S k) <= knot U (k + m + 1)) by (apply M; lia).
      rewrite qdiv_ok by (apply Qcsub_pos; qc_lra). cbn [bind].
      rewrite (get_ok _ _ d4) by lia. cbn [bind]. rewrite (get_ok _ _ d4) by lia. cbn [bind].
      rewrite !B by lia.
      match goal with |- exists s', set_nth st m ?x = _ /\ _ => destruct (set_nth_ok st m x) as (st' & E' & L' & G') end; [lia|].
      rewrite E'. exists st'. split; [reflexivity|]. split; [lia|]. split.
      + intros i Hi c Hc. rewrite G'. destruct (Nat.eqb_spec i m) as [->|]; [|apply A; [lia|assumption]].
        rewrite comp4_blend by assumption. rewrite !HT by (try lia; assumption).
        unfold pp. destruct j as [|q]; [lia|]. replace (S q - 1)%nat with q by lia.
        rewrite (pq_mid (knot U) k t p s (fun i => c (nth i P d4)) Hpk q (k - p + S q + m)) by lia.
        replace (k - p + S q + m + p - q)%nat with (k + m + 1)%nat by lia.
        replace (k - p + q + (m + 1))%nat with (k - p + S q + m)%nat by lia.
        replace (k - p + S q + m - 1)%nat with (k - p + q + m)%nat by lia. reflexivity.
      + intros i Hi. rewrite G'. destruct (Nat.eqb_spec i m); [lia|]. apply B. lia.
    - exists temp'. split; [exact E|]. destruct Q as (L & A & _). split; [exact L|].
      intros i Hi c Hc. apply A; [lia|assumption].
  Qed.

  Lemma knot_insertion_spec new0 :
    exists new, knot_insertion p U P t r s k new0 = Ok new /\ length new = (S n + r)%nat /\
      forall i, (i < S n + r)%nat -> forall c, comp4 c -> c (nth i new d4) = pp c r i.
  Proof.
    unfold knot_insertion. cbv zeta.
    set (new1 := resize new0 (length P + r)).
    assert (length new1 = (S n + r)%nat) as L1 by (unfold new1; rewrite resize_length; lia).
    replace (Z.of_nat k - Z.of_nat p + 1)%Z with (Z.of_nat (k - p + 1)) by lia.
    destruct (copy_range_ok P 0 (k - p + 1) new1 0) as (new2 & E2 & L2 & G2); [lia|lia|].
    change (Z.of_nat 0) with 0%Z in E2. rewrite E2. cbn [bind].
    replace (Z.of_nat k - Z.of_nat s + Z.of_nat r)%Z with (Z.of_nat (k - s + r)) by lia.
    replace (Z.of_nat (length P) - (Z.of_nat k - Z.of_nat s))%Z with (Z.of_nat (S n - (k - s))) by lia.
    replace (Z.of_nat k - Z.of_nat s)%Z with (Z.of_nat (k - s)) by lia.
    destruct (copy_range_ok P (k - s) (S n - (k - s)) new2 (k - s + r)) as (new3 & E3 & L3 & G3); [lia|lia|].
    rewrite E3. cbn [bind].
    replace (Z.of_nat p - Z.of_nat s + 1)%Z with (Z.of_nat (p - s + 1)) by lia.
    replace (Z.of_nat k - Z.of_nat p)%Z with (Z.of_nat (k - p)) by lia.
    destruct (copy_range_ok P (k - p) (p - s + 1) (repeat v4zero DEG_STACK_SIZE) 0) as (temp0 & E4 & L4 & G4); [lia|rewrite repeat_length; unfold DEG_STACK_SIZE; lia|].
    change (Z.of_nat 0) with 0%Z in E4. rewrite E4. cbn [bind].
    assert (length temp0 = 9%nat) as Lt by (rewrite L4; reflexivity).
    assert (forall i, (i <= k - p)%nat -> forall c, c (nth i new3 d4) = pp c r i) as I1.
    { intros i Hi c. rewrite G3. destruct (Nat.leb_spec (k - s + r) i) as [Q|Q]; cbn [andb].
      - destruct (Nat.ltb_spec i (k - s + r + (S n - (k - s)))); [|lia].
        assert (r = 0)%nat as Er by lia. assert (i = k - s)%nat as Ei by lia. unfold pp. rewrite Er. cbn [pq]. do 2 f_equal. lia.
      - rewrite G2. destruct (Nat.leb_spec 0 i); [|lia]. destruct (Nat.ltb_spec i (0 + (k - p + 1))); [|lia]. cbn [andb].
        unfold pp. rewrite (pq_left (knot U) k t p (fun i => c (nth i P d4)) Hpk 0 r) by lia. cbn [pq].
        do 2 f_equal. lia. }
    assert (forall i, (k - s + r <= i < S n + r)%nat -> forall c, c (nth i new3 d4) = pp c r i) as I2.
    { intros i Hi c. rewrite G3. destruct (Nat.leb_spec (k - s + r) i) as [Q|Q]; [|lia].
      destruct (Nat.ltb_spec i (k - s + r + (S n - (k - s)))); [|lia]. cbn [andb].
      pose proof (pq_right (knot U) k t p s (fun i => c (nth i P d4)) Hpk Hs 0 r (i - r)) as K.
      replace (i - r + r)%nat with i in K by lia. cbn [Nat.add] in K. unfold pp. rewrite K by lia. cbn [pq].
      do 2 f_equal. lia. }
    destruct (for_up_inv (fun j (st : list vec4 * list vec4) => let '(temp, new) := st in
        length temp = 9%nat /\ length new = (S n + r)%nat /\
        (forall i, (i <= p - (j - 1) - s)%nat -> forall c, comp4 c -> c (nth i temp d4) = pp c (j - 1) (k - p + (j - 1) + i)) /\
        (forall i, (i <= k - p + (j - 1) \/ k - s + r - (j - 1) <= i < S n + r)%nat -> forall c, comp4 c -> c (nth i new d4) = pp c r i))
        (insertion_outer p U t r s k) r 1 (temp0, new3)) as ([temp new] & E5 & Q5).
    - split; [assumption|]. split; [lia|]. split.
      + intros i Hi c Hc. rewrite G4. destruct (Nat.leb_spec 0 i); [|lia].
        destruct (Nat.ltb_spec i (0 + (p - s + 1))); [|lia]. cbn [andb]. unfold pp. cbn [Nat.sub pq]. do 2 f_equal. lia.
      + intros i Hi c Hc. destruct Hi as [Hi|Hi]; [apply I1; lia|apply I2; lia].
    - intros j [temp new] Hj1 Hj2 (LT & LN & HT & HN). unfold insertion_outer. cbv zeta.
      destruct (Nat.ltb_spec p (j + s)); [lia|].
      destruct (insertion_inner_loop j temp) as (temp' & E6 & L6 & G6); [lia|assumption|assumption|].
      rewrite E6. cbn [bind]. rewrite (get_ok _ _ d4) by lia. cbn [bind].
      destruct (set_nthZ_ok new (Z.of_nat k - Z.of_nat p + Z.of_nat j) (nth 0 temp' d4)) as (new' & E7 & L7 & G7); [lia|lia|].
      rewrite E7. cbn [bind]. rewrite (get_ok _ _ d4) by lia. cbn [bind].
      destruct (set_nthZ_ok new' (Z.of_nat k + Z.of_nat r - Z.of_nat j - Z.of_nat s) (nth (p - j - s) temp' d4)) as (new'' & E8 & L8 & G8); [lia|lia|].
      rewrite E8. cbn [bind]. eexists. split; [reflexivity|]. cbn beta iota.
      split; [assumption|]. split; [lia|]. replace (S j - 1)%nat with j by lia. split; [exact G6|].
      intros i Hi c Hc. rewrite G8.
      replace (Z.to_nat (Z.of_nat k + Z.of_nat r - Z.of_nat j - Z.of_nat s)) with (k - s + (r - j))%nat by lia.
      destruct (Nat.eqb_spec i (k - s + (r - j))) as [->|N1].
      + rewrite G6 by (try lia; assumption). unfold pp.
        pose proof (pq_right (knot U) k t p s (fun i => c (nth i P d4)) Hpk Hs j (r - j) (k - s)) as K.
        replace (j + (r - j))%nat with r in K by lia. rewrite K by lia. f_equal. lia.
      + rewrite G7. replace (Z.to_nat (Z.of_nat k - Z.of_nat p + Z.of_nat j)) with (k - p + j)%nat by lia.
        destruct (Nat.eqb_spec i (k - p + j)) as [->|N2].
        * rewrite G6 by (try lia; assumption). unfold pp.
          pose proof (pq_left (knot U) k t p (fun i => c (nth i P d4)) Hpk j (r - j) (k - p + j)) as K.
          replace (j + (r - j))%nat with r in K by lia. rewrite K by lia. f_equal. lia.
        * apply HN; [|assumption]. lia.
    - rewrite E5. cbn [bind]. destruct Q5 as (LT & LN & HT & HN).
      replace (1 + r - 1)%nat with r in * by lia.
      destruct (for_up_inv (fun m (st : list vec4) => length st = (S n + r)%nat /\
         forall i, (i <= k - p + r + m \/ k - s <= i < S n + r)%nat -> forall c, comp4 c -> c (nth i st d4) = pp c r i)
         (fun i new =>
            t0 <- getZ temp (1 + Z.of_nat i) ;;
            set_nthZ new (Z.of_nat (k - p) + Z.of_nat r + 1 + Z.of_nat i) t0)
         (Z.to_nat (Z.of_nat (k - s) - (Z.of_nat (k - p) + Z.of_nat r + 1))) 0 new) as (new' & E9 & L9 & G9).
      + split; [assumption|]. intros i Hi c Hc. apply HN; [lia|assumption].
      + intros m st _ Hm (L & G). rewrite (getZ_ok _ _ d4) by lia. cbn [bind].
        destruct (set_nthZ_ok st (Z.of_nat (k - p) + Z.of_nat r + 1 + Z.of_nat m) (nth (Z.to_nat (1 + Z.of_nat m)) temp d4)) as (st' & E' & L' & G'); [lia|lia|].
        rewrite E'. exists st'. split; [reflexivity|]. split; [lia|].
        intros i Hi c Hc. rewrite G'.
        replace (Z.to_nat (Z.of_nat (k - p) + Z.of_nat r + 1 + Z.of_nat m)) with (k - p + r + 1 + m)%nat by lia.
        destruct (Nat.eqb_spec i (k - p + r + 1 + m)) as [->|].
        * rewrite HT by (try lia; assumption). f_equal. lia.
        * apply G; [lia|assumption].
      + exists new'. split; [exact E9|]. split; [exact L9|].
        intros i Hi c Hc. apply G9; [lia|assumption].
  Qed.
End Program.

(** ** the knot vector *)
Lemma kv_spec U t span r : (span + 1 <= length U)%nat ->
  knot_insertion_kv U t span r = Ok (firstn (span + 1) U ++ repeat t r ++ skipn (span + 1) U).
Proof.
  intros H. unfold knot_insertion_kv.
  destruct (for_up_inv (fun m l => l = firstn (span + 1) U ++ repeat t m ++ skipn (span + 1) U)
    (fun _ kv => vec_insert kv (span + 1) t) r 0 U) as (l & E & Q).
  - cbn. symmetry. apply firstn_skipn.
  - intros m l _ _ ->. unfold vec_insert.
    destruct (Nat.leb_spec (span + 1) (length (firstn (span + 1) U ++ repeat t m ++ skipn (span + 1) U))) as [L|L].
    2:{ rewrite app_length, firstn_length in L. lia. }
    eexists. split; [reflexivity|].
    assert (length (firstn (span + 1) U) = span + 1)%nat as LF by (rewrite firstn_length; lia).
    rewrite firstn_app, skipn_app, LF, Nat.sub_diag. cbn [firstn skipn].
    rewrite firstn_all2 by lia. rewrite skipn_all2 by lia. rewrite app_nil_r. reflexivity.
  - rewrite E, Q. reflexivity.
Qed.

Lemma kv_knot U t k r i : (k + 2 <= length U)%nat ->
  knot (firstn (k + 1) U ++ repeat t r ++ skipn (k + 1) U) i = insr (knot U) k t r i.
Proof.
  intros H.
  assert (last (firstn (k + 1) U ++ repeat t r ++ skipn (k + 1) U) 0 = last U 0) as EL.
  { assert (skipn (k + 1) U <> []) as NE.
    { intros E. apply (f_equal (@length Qc)) in E. rewrite skipn_length in E. cbn in E. lia. }
    destruct (exists_last NE) as (l & x & Ex). rewrite Ex.
    rewrite !app_assoc, last_last. rewrite <- (firstn_skipn (k + 1) U), Ex, app_assoc, last_last. reflexivity. }
  unfold knot at 1. rewrite EL.
  assert (length (firstn (k + 1) U) = k + 1)%nat as LF by (rewrite firstn_length; lia).
  destruct (Nat.le_gt_cases i k) as [A|A].
  { rewrite insr_lo by assumption. rewrite app_nth1 by lia. unfold knot. apply nth_firstn_lt. lia. }
  rewrite app_nth2 by lia. rewrite LF.
  destruct (Nat.le_gt_cases i (k + r)) as [B|B].
  { rewrite insr_mid by lia. rewrite app_nth1 by (rewrite repeat_length; lia).
    rewrite (nth_indep _ _ t) by (rewrite repeat_length; lia). apply nth_repeat. }
  rewrite (insr_hi _ _ _ r i (i - r)) by lia. rewrite app_nth2 by (rewrite repeat_length; lia).
  rewrite repeat_length, nth_skipn_add. unfold knot. f_equal. lia.
Qed.
