(** Knot insertion (Boehm): the basis over a knot vector in terms of the basis
    over the vector with one more knot, and the control points that go with it. *)
From Coq Require Import List ZArith QArith Qcanon Bool Lia Lqa Field.
From Verif Require Import Base BaseFacts SpecNurbs ProofBspline.
Import ListNotations.
Open Scope Qc_scope.

(** the knot function with t inserted behind index k *)
Definition insf (U : nat -> Qc) (k : nat) (t : Qc) (i : nat) : Qc :=
  if Nat.leb i k then U i else if Nat.eqb i (S k) then t else U (i - 1)%nat.

Lemma insf_lo U k t i : (i <= k)%nat -> insf U k t i = U i.
Proof. intros. unfold insf. destruct (Nat.leb_spec i k); [reflexivity|lia]. Qed.
Lemma insf_at U k t i : i = S k -> insf U k t i = t.
Proof. intros ->. unfold insf. destruct (Nat.leb_spec (S k) k); [lia|]. rewrite Nat.eqb_refl. reflexivity. Qed.
Lemma insf_hi U k t i j : (S k < i)%nat -> j = (i - 1)%nat -> insf U k t i = U j.
Proof. intros H ->. unfold insf. destruct (Nat.leb_spec i k); [lia|]. destruct (Nat.eqb_spec i (S k)); [lia|reflexivity]. Qed.

Lemma insf_mono U k t : mono U -> U k <= t -> t <= U (S k) -> mono (insf U k t).
Proof.
  intros M A B i j H. unfold insf.
  destruct (Nat.leb_spec i k), (Nat.leb_spec j k); try lia.
  - apply M; lia.
  - destruct (Nat.eqb_spec j (S k)).
    + assert (U i <= U k) by (apply M; lia). qc_lra.
    + apply M; lia.
  - destruct (Nat.eqb_spec i (S k)), (Nat.eqb_spec j (S k)); try lia.
    + qc_lra.
    + assert (U (S k) <= U (j - 1)%nat) by (apply M; lia). qc_lra.
    + apply M; lia.
Qed.

(** blending factor of control point i *)
Definition al (U : nat -> Qc) (k : nat) (t : Qc) (p i : nat) : Qc :=
  if Nat.leb (i + p) k then 1 else if Nat.ltb k i then 0 else (t - U i) / (U (i + p)%nat - U i).

Lemma al_lo U k t p i : (i + p <= k)%nat -> al U k t p i = 1.
Proof. intros. unfold al. destruct (Nat.leb_spec (i + p) k); [reflexivity|lia]. Qed.
Lemma al_hi U k t p i : (k < i)%nat -> al U k t p i = 0.
Proof. intros. unfold al. destruct (Nat.leb_spec (i + p) k); [lia|]. destruct (Nat.ltb_spec k i); [reflexivity|lia]. Qed.
Lemma al_mid U k t p i j : (k < i + p)%nat -> (i <= k)%nat -> j = (i + p)%nat -> al U k t p i = (t - U i) / (U j - U i).
Proof. intros ? ? ->. unfold al. destruct (Nat.leb_spec (i + p) k); [lia|]. destruct (Nat.ltb_spec k i); [lia|reflexivity]. Qed.

(** the span of u after insertion *)
Definition ins_span (s k : nat) (t u : Qc) : nat :=
  if Nat.ltb s k then s else if Nat.ltb k s then S s else if u <? t then k else S k.

Lemma ins_span_ok U s k t u : mono U -> span_ok U s u -> U k <= t -> t < U (S k) ->
  span_ok (insf U k t) (ins_span s k t u) u.
Proof.
  intros M (A & B & C) H1 H2. unfold ins_span, span_ok.
  destruct (Nat.ltb_spec s k).
  - rewrite !insf_lo by lia. auto.
  - destruct (Nat.ltb_spec k s).
    + rewrite (insf_hi _ _ _ (S s) s) by lia. rewrite (insf_hi _ _ _ (S (S s)) (S s)) by lia. auto.
    + assert (s = k) as -> by lia. destruct (Qcltb_spec u t).
      * rewrite insf_lo, insf_at by lia. repeat split; qc_lra.
      * rewrite insf_at, (insf_hi _ _ _ (S (S k)) (S k)) by lia. repeat split; qc_lra.
Qed.

Lemma ins_span_is U n s k t u : mono U -> is_span U n s u -> U k <= t -> t < U (S k) -> (k <= n)%nat ->
  is_span (insf U k t) (S n) (ins_span s k t u) u.
Proof.
  intros M (A & B & C) H1 H2 Hk. unfold ins_span, is_span.
  destruct (Nat.ltb_spec s k).
  - rewrite !insf_lo by lia. split; [lia|]. split; [assumption|]. left. destruct C as [C|[C _]]; [assumption|lia].
  - rewrite (insf_hi _ _ _ (S (S n)) (S n)) by lia.
    destruct (Nat.ltb_spec k s).
    + rewrite (insf_hi _ _ _ (S s) s) by lia. rewrite (insf_hi _ _ _ (S (S s)) (S s)) by lia.
      split; [lia|]. split; [assumption|]. destruct C as [C|[C D]]; [left|right]; auto.
    + assert (s = k) as -> by lia. destruct (Qcltb_spec u t).
      * rewrite insf_lo, insf_at by lia. split; [lia|]. auto.
      * rewrite insf_at, (insf_hi _ _ _ (S (S k)) (S k)) by lia. split; [lia|]. split; [qc_lra|].
        destruct C as [C|[C D]]; [left|right]; auto.
Qed.

Section Boehm.
  Variables (U : nat -> Qc) (k s : nat) (t u : Qc).
  Hypothesis M : mono U.
  Hypothesis SO : span_ok U s u.
  Hypothesis T1 : U k <= t.
  Hypothesis T2 : t < U (S k).
  Let V := insf U k t.
  Let s' := ins_span s k t u.

  Let MV : mono V.
  Proof. apply insf_mono; [assumption|assumption|qc_lra]. Qed.
  Let SV : span_ok V s' u.
  Proof. apply ins_span_ok; assumption. Qed.

  Let lt_cross i j : (i <= k)%nat -> (k < j)%nat -> U i <= t /\ t < U j.
  Proof. intros. assert (U i <= U k) by (apply M; lia). assert (U (S k) <= U j) by (apply M; lia). split; qc_lra. Qed.

  Let ne_cross i j : (i <= k)%nat -> (k < j)%nat -> U j - U i <> 0.
  Proof. intros. destruct (lt_cross i j); try assumption. apply Qcsub_pos. qc_lra. Qed.

  Let flat i p : V i = V (i + p + 1)%nat -> bsp V s' p i u = 0.
  Proof. apply bsp_flat; assumption. Qed.

  Let X_coef p i : al U k t p i * ((u - U i) / (U (i + S p)%nat - U i)) * bsp V s' p i u =
                  al U k t (S p) i * ((u - V i) / (V (i + S p)%nat - V i)) * bsp V s' p i u.
  Proof.
    destruct (Nat.le_gt_cases (i + S p) k) as [H|H].
    { rewrite !al_lo by lia. unfold V. rewrite !insf_lo by lia. reflexivity. }
    destruct (Nat.le_gt_cases i k) as [H'|H'].
    2:{ rewrite !al_hi by lia. ring. }
    rewrite (al_mid _ _ _ (S p) i (i + S p)) by lia.
    assert (V i = U i) as EV by (apply insf_lo; lia). rewrite EV.
    destruct (Nat.eq_dec (i + p) k) as [E|E].
    - rewrite al_lo by lia. assert (V (i + S p)%nat = t) as EV2 by (apply insf_at; lia). rewrite EV2.
      destruct (Qceqb_spec t (U i)) as [Et|Et].
      + rewrite flat; [ring|]. rewrite EV. replace (i + p + 1)%nat with (i + S p)%nat by lia. congruence.
      + f_equal. field. split; [|apply ne_cross; lia]. intros Z. apply Et. qc_lra.
    - rewrite (al_mid _ _ _ p i (i + p)) by lia.
      assert (V (i + S p)%nat = U (i + p)%nat) as EV2 by (apply insf_hi; lia). rewrite EV2.
      f_equal. field. split; apply ne_cross; lia.
  Qed.

  Let Z_coef p i : (1 - al U k t p (i + 2)) * ((U (i + p + 2)%nat - u) / (U (i + p + 2)%nat - U (i + 1)%nat)) * bsp V s' p (i + 2) u =
                  (1 - al U k t (S p) (i + 1)) * ((V (i + p + 3)%nat - u) / (V (i + p + 3)%nat - V (i + 2)%nat)) * bsp V s' p (i + 2) u.
  Proof.
    destruct (Nat.le_gt_cases (i + p + 2) k) as [H|H].
    { rewrite !al_lo by lia. ring. }
    destruct (Nat.le_gt_cases (i + 1) k) as [H'|H'].
    2:{ rewrite !al_hi by lia. unfold V. rewrite (insf_hi _ _ _ (i + p + 3) (i + p + 2)) by lia.
        rewrite (insf_hi _ _ _ (i + 2) (i + 1)) by lia. reflexivity. }
    rewrite (al_mid _ _ _ (S p) (i + 1) (i + p + 2)) by lia.
    assert (V (i + p + 3)%nat = U (i + p + 2)%nat) as EV by (apply insf_hi; lia). rewrite EV.
    assert (1 - (t - U (i + 1)%nat) / (U (i + p + 2)%nat - U (i + 1)%nat) =
            (U (i + p + 2)%nat - t) / (U (i + p + 2)%nat - U (i + 1)%nat)) as -> by (field; apply ne_cross; lia).
    destruct (Nat.eq_dec (i + 1) k) as [E|E].
    - rewrite al_hi by lia. assert (V (i + 2)%nat = t) as EV2 by (apply insf_at; lia). rewrite EV2.
      f_equal. field. split; [|apply ne_cross; lia].
      apply Qcsub_pos. apply (lt_cross (i + 1) (i + p + 2)); lia.
    - assert (V (i + 2)%nat = U (i + 2)%nat) as EV2 by (apply insf_lo; lia). rewrite EV2.
      destruct (Nat.le_gt_cases (i + 2 + p) k) as [K|K]; [lia|].
      rewrite (al_mid _ _ _ p (i + 2) (i + p + 2)) by lia.
      f_equal. field. split; apply ne_cross; lia.
  Qed.

  Let Y_coef p i : ((1 - al U k t p (i + 1)) * ((u - U i) / (U (i + p + 1)%nat - U i))
      + al U k t p (i + 1) * ((U (i + p + 2)%nat - u) / (U (i + p + 2)%nat - U (i + 1)%nat))) * bsp V s' p (i + 1) u =
     (al U k t (S p) i * ((V (i + p + 2)%nat - u) / (V (i + p + 2)%nat - V (i + 1)%nat))
      + (1 - al U k t (S p) (i + 1)) * ((u - V (i + 1)%nat) / (V (i + p + 2)%nat - V (i + 1)%nat))) * bsp V s' p (i + 1) u.
  Proof.
    destruct (Nat.le_gt_cases (i + p + 2) k) as [H|H].
    { rewrite !al_lo by lia. unfold V. rewrite !insf_lo by lia. ring. }
    destruct (Nat.le_gt_cases i k) as [H'|H'].
    2:{ rewrite !al_hi by lia. unfold V. rewrite (insf_hi _ _ _ (i + p + 2) (i + p + 1)) by lia.
        rewrite (insf_hi _ _ _ (i + 1) i) by lia. ring. }
    destruct (Nat.eq_dec i k) as [E|E].
    { rewrite (al_hi _ _ _ p (i + 1)) by lia. rewrite (al_hi _ _ _ (S p) (i + 1)) by lia.
      rewrite (al_mid _ _ _ (S p) i (i + p + 1)) by lia.
      assert (V (i + 1)%nat = t) as EV by (apply insf_at; lia). rewrite EV.
      assert (V (i + p + 2)%nat = U (i + p + 1)%nat) as EV2 by (apply insf_hi; lia). rewrite EV2.
      assert (U (i + p + 1)%nat - t <> 0) by (apply Qcsub_pos; apply (lt_cross i (i + p + 1)); lia).
      assert (U (i + p + 1)%nat - U i <> 0) by (apply ne_cross; lia).
      f_equal. unfold Qcdiv at 2. rewrite Qcmult_0_l. field. split; assumption. }
    assert (V (i + 1)%nat = U (i + 1)%nat) as EV by (apply insf_lo; lia). rewrite EV.
    rewrite (al_mid _ _ _ (S p) (i + 1) (i + p + 2)) by lia.
    assert (U (i + p + 2)%nat - U (i + 1)%nat <> 0) as N1 by (apply ne_cross; lia).
    destruct (Nat.eq_dec (i + p + 1) k) as [E2|E2].
    - rewrite (al_lo _ _ _ p (i + 1)) by lia. rewrite (al_lo _ _ _ (S p) i) by lia.
      assert (V (i + p + 2)%nat = t) as EV2 by (apply insf_at; lia). rewrite EV2.
      destruct (Qceqb_spec t (U (i + 1)%nat)) as [Et|Et].
      + rewrite flat; [ring|]. replace (i + 1 + p + 1)%nat with (i + p + 2)%nat by lia. congruence.
      + assert (t - U (i + 1)%nat <> 0) as N2 by (intros Z; apply Et; qc_lra).
        f_equal. assert (1 - 1 = 0) as -> by ring. rewrite Qcmult_0_l. field. split; assumption.
    - rewrite (al_mid _ _ _ p (i + 1) (i + p + 1)) by lia.
      rewrite (al_mid _ _ _ (S p) i (i + p + 1)) by lia.
      assert (V (i + p + 2)%nat = U (i + p + 1)%nat) as EV2 by (apply insf_hi; lia). rewrite EV2.
      f_equal. field. repeat split; try assumption; apply ne_cross; lia.
  Qed.

  Lemma boehm p i : bsp U s p i u = al U k t p i * bsp V s' p i u + (1 - al U k t p (i + 1)) * bsp V s' p (i + 1) u.
  Proof.
    revert i. induction p; intros i.
    - cbn [bsp]. unfold s', ins_span.
      destruct (Nat.ltb_spec s k) as [H|H].
      + destruct (Nat.eqb_spec i s) as [E|E].
        * rewrite !al_lo by lia. ring.
        * destruct (Nat.eqb_spec (i + 1) s); [rewrite (al_lo _ _ _ _ (i + 1)) by lia|]; ring.
      + destruct (Nat.ltb_spec k s) as [H2|H2].
        * destruct (Nat.eqb_spec i s) as [E|E].
          -- destruct (Nat.eqb_spec i (S s)); [lia|]. destruct (Nat.eqb_spec (i + 1) (S s)); [|lia].
             rewrite !al_hi by lia. ring.
          -- destruct (Nat.eqb_spec (i + 1) (S s)); [lia|].
             destruct (Nat.eqb_spec i (S s)); [rewrite (al_hi _ _ _ _ i) by lia|]; ring.
        * assert (s = k) as Es by lia. destruct (Qcltb_spec u t).
          -- destruct (Nat.eqb_spec i s), (Nat.eqb_spec i k), (Nat.eqb_spec (i + 1) k); try lia.
             ++ rewrite al_lo by lia. ring.
             ++ rewrite (al_lo _ _ _ _ (i + 1)) by lia. ring.
             ++ ring.
          -- destruct (Nat.eqb_spec i s), (Nat.eqb_spec i (S k)), (Nat.eqb_spec (i + 1) (S k)); try lia.
             ++ rewrite (al_hi _ _ _ _ (i + 1)) by lia. ring.
             ++ rewrite (al_hi _ _ _ _ i) by lia. ring.
             ++ ring.
    - rewrite !bsp_S. rewrite (IHp i), (IHp (i + 1)%nat).
      pose proof (X_coef p i) as HX. pose proof (Y_coef p i) as HY. pose proof (Z_coef p i) as HZ.
      replace (i + 1 + 1)%nat with (i + 2)%nat by lia.
      replace (i + 1 + S p + 1)%nat with (i + p + 3)%nat by lia.
      replace (i + 1 + S p)%nat with (i + p + 2)%nat by lia.
      replace (i + S p + 1)%nat with (i + p + 2)%nat by lia.
      replace (i + S p)%nat with (i + p + 1)%nat in * by lia.
      replace (al U k t p (i + 2)) with (al U k t p (i + 2)%nat) in * by reflexivity.
      set (bx := bsp V s' p i u) in *. set (by_ := bsp V s' p (i + 1) u) in *. set (bz := bsp V s' p (i + 2) u) in *.
      match type of HX with ?a = ?b => match type of HY with ?c = ?d => match type of HZ with ?e = ?f =>
        transitivity (a + c + e); [ring | rewrite HX, HY, HZ; ring] end end end.
  Qed.

  (** control points after one insertion *)
  Lemma insert_sum p n (P Q : nat -> Qc) : (p <= k)%nat -> (k <= n)%nat ->
    Q 0%nat = P 0%nat ->
    (forall i, (1 <= i <= n)%nat -> Q i = al U k t p i * P i + (1 - al U k t p i) * P (i - 1)%nat) ->
    Q (S n) = P n ->
    qsum (fun i => bsp U s p i u * P i) (S n) = qsum (fun i => bsp V s' p i u * Q i) (S (S n)).
  Proof.
    intros Hp Hk Q0 Qm QN.
    rewrite (qsum_ext (fun i => bsp U s p i u * P i)
      (fun i => al U k t p i * bsp V s' p i u * P i + (1 - al U k t p (S i)) * bsp V s' p (S i) u * P i)).
    2:{ intros i _. rewrite boehm. rewrite Nat.add_1_r. ring. }
    rewrite qsum_add.
    assert (qsum (fun i => al U k t p i * bsp V s' p i u * P i) (S n) =
            qsum (fun i => al U k t p i * bsp V s' p i u * P i) (S (S n))) as ->.
    { cbn [qsum]. rewrite (al_hi _ _ _ p (S n)) by lia. ring. }
    assert (qsum (fun i => (1 - al U k t p (S i)) * bsp V s' p (S i) u * P i) (S n) =
            qsum (fun i => (1 - al U k t p i) * bsp V s' p i u * P (i - 1)%nat) (S (S n))) as ->.
    { rewrite (qsum_shift (fun i => (1 - al U k t p i) * bsp V s' p i u * P (i - 1)%nat) (S n)).
      rewrite (al_lo _ _ _ p 0) by lia. rewrite (qsum_ext _ (fun i => (1 - al U k t p (S i)) * bsp V s' p (S i) u * P (S i - 1)%nat)).
      - ring.
      - intros i _. replace (S i - 1)%nat with i by lia. reflexivity. }
    rewrite <- qsum_add. apply qsum_ext. intros i Hi.
    destruct (Nat.eq_dec i 0) as [->|H0].
    { rewrite Q0. rewrite (al_lo _ _ _ p 0) by lia. ring. }
    destruct (Nat.eq_dec i (S n)) as [->|HN].
    { rewrite QN. rewrite (al_hi _ _ _ p (S n)) by lia. replace (S n - 1)%nat with n by lia. ring. }
    rewrite Qm by lia. ring.
  Qed.
End Boehm.
