(** Binomial table and adaptive quadrature. *)
From Coq Require Import List ZArith QArith Qcanon Bool Lia Lqa Field Sorted FinFun.
From Verif Require Import Base BaseFacts LoopFacts ModelBinom ModelNumeric SpecNurbs SpecNumeric.
Import ListNotations.
Open Scope Qc_scope.

(** ** binomial coefficients *)
Fixpoint sublists (k : nat) (l : list nat) : list (list nat) :=
  match k, l with
  | O, _ => [[]]
  | S _, [] => []
  | S k', x :: l' => map (cons x) (sublists k' l') ++ sublists k l'
  end.
Fixpoint choose (n k : nat) : Z :=
  match n, k with
  | _, O => 1
  | O, S _ => 0
  | S n', S k' => choose n' k' + choose n' k
  end.

Lemma sublists_length : forall l k, Z.of_nat (length (sublists k l)) = choose (length l) k.
Proof.
  induction l as [|x l IH]; intros [|k]; try reflexivity. cbn [sublists length choose].
  rewrite app_length, map_length, Nat2Z.inj_add, !IH. reflexivity.
Qed.
Lemma sublists_In : forall l k s, StronglySorted lt l ->
  In s (sublists k l) <-> length s = k /\ StronglySorted lt s /\ (forall x, In x s -> In x l).
Proof.
  induction l as [|x l IH]; intros [|k] s HS; cbn [sublists].
  - split.
    + intros [<-|[]]. repeat split; [constructor|intros ? []].
    + intros (A & _). left. destruct s; [reflexivity|discriminate].
  - split; [intros []|]. intros (A & _ & B). destruct s as [|y s]; [discriminate|]. destruct (B y). left. reflexivity.
  - split.
    + intros [<-|[]]. repeat split; [constructor|intros ? []].
    + intros (A & _). left. destruct s; [reflexivity|discriminate].
  - inversion HS as [|? ? HS' HF]; subst. rewrite in_app_iff, in_map_iff. split.
    + intros [(s' & <- & H)|H]; apply IH in H; try assumption; destruct H as (A & B & C).
      * split; [cbn; congruence|]. split.
        { constructor; [assumption|]. apply Forall_forall. intros y Hy. rewrite Forall_forall in HF. auto. }
        intros y [<-|Hy]; [left; reflexivity|right; auto].
      * split; [assumption|]. split; [assumption|]. intros y Hy. right. auto.
    + intros (A & B & C). destruct s as [|y s]; [discriminate|]. inversion B as [|? ? B1 B2]; subst.
      destruct (Nat.eq_dec y x) as [-> |N].
      * left. exists s. split; [reflexivity|]. apply IH; [assumption|]. split; [cbn in A; lia|]. split; [assumption|].
        intros z Hz. destruct (C z (or_intror Hz)) as [<-|]; [|assumption]. rewrite Forall_forall in B2. specialize (B2 _ Hz). lia.
      * right. apply IH; [assumption|]. split; [assumption|]. split; [assumption|].
        assert (In y l) as Hy by (destruct (C y (or_introl eq_refl)); [congruence|assumption]).
        rewrite Forall_forall in HF, B2. pose proof (HF _ Hy).
        intros z [<-|Hz]; [assumption|]. destruct (C z (or_intror Hz)) as [<-|]; [|assumption]. specialize (B2 _ Hz). lia.
Qed.
Lemma sublists_NoDup : forall l k, StronglySorted lt l -> NoDup (sublists k l).
Proof.
  induction l as [|x l IH]; intros [|k] HS; cbn [sublists]; try (constructor; [intros []|constructor]); try constructor.
  inversion HS as [|? ? HS' HF]; subst. 
  assert (forall a b : list (list nat), NoDup a -> NoDup b -> (forall s, In s a -> ~ In s b) -> NoDup (a ++ b)) as NA.
  { induction a as [|h a IHa]; intros b A B D; cbn; [assumption|]. inversion A; subst. constructor.
    - rewrite in_app_iff. intros [H|H]; [contradiction|]. apply (D h); [left; reflexivity|assumption].
    - apply IHa; auto. intros s Hs. apply D. right. assumption. }
  apply NA.
  - apply Injective_map_NoDup; [|apply IH; assumption]. intros a b H. congruence.
  - apply IH. assumption.
  - intros s H1 H2. apply in_map_iff in H1. destruct H1 as (s' & <- & _). apply sublists_In in H2; [|assumption].
    destruct H2 as (_ & _ & C). specialize (C x (or_introl eq_refl)). rewrite Forall_forall in HF. specialize (HF _ C). lia.
Qed.
Lemma seq_sorted : forall n a, StronglySorted lt (seq a n).
Proof.
  induction n; intros a; cbn; constructor; [apply IHn|]. apply Forall_forall. intros x Hx. apply in_seq in Hx. lia.
Qed.
Lemma choose_count n k : subset_count n k (choose n k).
Proof.
  exists (sublists k (seq 0 n)). split; [apply sublists_NoDup, seq_sorted|]. split.
  - intros s. rewrite sublists_In by apply seq_sorted. unfold subset_of. split; intros (A & B & C); split; auto; split; auto; intros x Hx; specialize (C x Hx).
    + apply in_seq in C. lia.
    + apply in_seq. lia.
  - rewrite sublists_length, seq_length. reflexivity.
Qed.

(** the table obeys Pascal's rule, checked on all of it *)
Definition tab (n k : nat) : Z := nth k (nth n binom_coeffs []) 0%Z.
Definition table_ok : bool :=
  forallb (fun n => (tab n 0 =? 1)%Z) (seq 0 31) && forallb (fun k => (tab 0 (S k) =? 0)%Z) (seq 0 30) &&
  forallb (fun n => forallb (fun k => (tab (S n) (S k) =? tab n k + tab n (S k))%Z) (seq 0 30)) (seq 0 30).
Lemma table_ok_true : table_ok = true. Proof. vm_compute. reflexivity. Qed.
Lemma tab_choose : forall n k, (n <= 30)%nat -> (k <= 30)%nat -> tab n k = choose n k.
Proof.
  pose proof table_ok_true as T. unfold table_ok in T. rewrite !andb_true_iff, !forallb_forall in T. destruct T as ((T1 & T2) & T3).
  induction n; intros [|k] Hn Hk.
  - apply Z.eqb_eq, T1, in_seq. lia.
  - apply Z.eqb_eq, T2, in_seq. lia.
  - cbn [choose]. apply Z.eqb_eq, T1, in_seq. lia.
  - cbn [choose]. rewrite <- !IHn by lia. specialize (T3 n ltac:(apply in_seq; lia)). rewrite forallb_forall in T3. apply Z.eqb_eq, T3, in_seq. lia.
Qed.
Lemma table_shape : length binom_coeffs = 31%nat /\ forall r, In r binom_coeffs -> length r = 31%nat.
Proof.
  split; [reflexivity|]. assert (forallb (fun r => Nat.eqb (length r) 31) binom_coeffs = true) as F by (vm_compute; reflexivity).
  rewrite forallb_forall in F. intros r Hr. apply Nat.eqb_eq, F, Hr.
Qed.
Lemma binomial_tab n k : (n <= 30)%nat -> (k <= 30)%nat -> binomial_coefficient (Z.of_nat n) (Z.of_nat k) = Ok (tab n k).
Proof.
  intros Hn Hk. destruct table_shape as (L1 & L2). unfold binomial_coefficient, tab.
  rewrite (getZ_ok _ _ []) by lia. cbn [bind]. rewrite Nat2Z.id. rewrite (getZ_ok _ _ 0%Z) by (rewrite ?L2; [lia|apply nth_In; lia] || lia).
  rewrite Nat2Z.id. reflexivity.
Qed.
Lemma binomial_top : forall n k, (n <= 30)%nat -> (k <= 30)%nat ->
  exists c, binomial_coefficient (Z.of_nat n) (Z.of_nat k) = Ok c /\ subset_count n k c.
Proof.
  intros n k Hn Hk. exists (tab n k). split; [apply binomial_tab; assumption|]. rewrite tab_choose by assumption. apply choose_count.
Qed.
Lemma binomial_outside : forall n k, (n < 0 \/ 30 < n \/ k < 0 \/ 30 < k)%Z -> binomial_coefficient n k = UB.
Proof.
  intros n k H. unfold binomial_coefficient, getZ. destruct (Z.ltb_spec n 0); [reflexivity|].
  destruct (Z.le_gt_cases n 30).
  - assert (exists row, get binom_coeffs (Z.to_nat n) = Ok row /\ length row = 31%nat) as (row & -> & L).
    { assert (forallb (fun r => Nat.eqb (length r) 31) binom_coeffs = true) as F by (vm_compute; reflexivity).
      unfold get. destruct (nth_error binom_coeffs (Z.to_nat n)) eqn:E.
      - exists l. split; [reflexivity|]. rewrite forallb_forall in F. apply Nat.eqb_eq, F. eapply nth_error_In; eassumption.
      - apply nth_error_None in E. change (length binom_coeffs) with 31%nat in E. lia. }
    cbn [bind]. destruct (Z.ltb_spec k 0); [reflexivity|]. unfold get.
    assert (nth_error row (Z.to_nat k) = None) as -> by (apply nth_error_None; lia). reflexivity.
  - unfold get. assert (nth_error binom_coeffs (Z.to_nat n) = None) as ->; [|reflexivity].
    apply nth_error_None. change (length binom_coeffs) with 31%nat. lia.
Qed.

(** ** quadrature *)
Lemma this_div a b : (this (a / b) == this a / this b)%Q.
Proof.
  unfold Qcdiv, Qdiv. rewrite this_mult. unfold Qcinv. rewrite this_Q2Qc. reflexivity.
Qed.
Ltac qfield := apply Qc_eq_this; repeat (rewrite ?this_plus, ?this_mult, ?this_opp, ?this_minus, ?this_div, ?this_qc, ?this_0, ?this_1); field.

Section Simpson.
Variable f : Qc -> Qc.

(** What every call of adaptive_simpson does to the accumulator, for a relation
    kept by halving and by the final estimate. *)
Lemma simpson_ind (I : Qc -> Qc -> Qc -> Prop) (P : Qc -> Qc -> quad -> quad -> Prop) :
  (forall a b S tol acc d, I a b S -> 
     let m := qc 1 2 * (a + b) in let m1 := qc 1 2 * (a + m) in let m2 := qc 1 2 * (m + b) in
     let SL := (b - a) / qc 12 1 * (f a + qc 4 1 * f m1 + f m) in
     let SR := (b - a) / qc 12 1 * (f m + qc 4 1 * f m2 + f b) in
     let est := (SL + SR - S) / qc 15 1 in
     let acc1 := Quad (q_result acc) (q_error acc) (q_calls acc ++ [m1; m2]) in
     (d = O \/ Qcabs est < tol -> P a b acc (Quad (q_result acc + (SL + SR)) (q_error acc + Qcabs est) (q_calls acc ++ [m1; m2]))) /\
     (I a m SL /\ I m b SR) /\
     (forall x y, P a m acc1 x -> P m b x y -> P a b acc y)) ->
  forall d a b S tol acc, I a b S -> P a b acc (adaptive_simpson d f a b (f a) (f b) (f (qc 1 2 * (a + b))) S tol acc).
Proof.
  intros H. induction d; intros a b S tol acc HI; cbn [adaptive_simpson].
  - destruct (H a b S tol acc O HI) as (A & _ & _). apply A. left. reflexivity.
  - destruct (H a b S tol acc (Datatypes.S d) HI) as (A & (B1 & B2) & C).
    destruct (Qcltb_spec (Qcabs (((b - a) / qc 12 1 * (f a + qc 4 1 * f (qc 1 2 * (a + qc 1 2 * (a + b))) + f (qc 1 2 * (a + b))) + (b - a) / qc 12 1 * (f (qc 1 2 * (a + b)) + qc 4 1 * f (qc 1 2 * (qc 1 2 * (a + b) + b)) + f b) - S) / qc 15 1)) tol).
    + apply A. right. assumption.
    + eapply C; apply IHd; assumption.
Qed.
End Simpson.

Lemma Qcabs_0 : Qcabs 0 = 0. Proof. reflexivity. Qed.
Lemma Qcabs_nonneg a : 0 <= Qcabs a.
Proof. unfold Qcabs. destruct (Qcltb_spec a 0); qc_lra. Qed.
Lemma Qcabs_opp a : Qcabs (- a) = Qcabs a.
Proof. unfold Qcabs. destruct (Qcltb_spec a 0); destruct (Qcltb_spec (- a) 0); qc_lra. Qed.

Lemma cubic_top : forall c0 c1 c2 c3 a b tol depth,
  let q := integrate (cubic c0 c1 c2 c3) a b tol depth in
  q_result q = cubic_integral c0 c1 c2 c3 a b /\ q_error q = 0.
Proof.
  intros c0 c1 c2 c3 a b tol depth q. unfold q, integrate. set (f := cubic c0 c1 c2 c3).
  set (acc := Quad 0 0 _).
  assert (forall x y, (y - x) / qc 6 1 * (f x + qc 4 1 * f (qc 1 2 * (x + y)) + f y) = cubic_integral c0 c1 c2 c3 x y) as SI.
  { intros x y. unfold f, cubic, cubic_integral. qfield. }
  enough (q_result (adaptive_simpson depth f a b (f a) (f b) (f (qc 1 2 * (a + b))) ((b - a) / qc 6 1 * (f a + qc 4 1 * f (qc 1 2 * (a + b)) + f b)) tol acc)
     = q_result acc + cubic_integral c0 c1 c2 c3 a b /\
     q_error (adaptive_simpson depth f a b (f a) (f b) (f (qc 1 2 * (a + b))) ((b - a) / qc 6 1 * (f a + qc 4 1 * f (qc 1 2 * (a + b)) + f b)) tol acc) = q_error acc) as [E1 E2].
  { split; [rewrite E1; cbn [acc q_result]; ring|exact E2]. }
  apply (simpson_ind f (fun a b S => S = cubic_integral c0 c1 c2 c3 a b)
    (fun a b acc out => q_result out = q_result acc + cubic_integral c0 c1 c2 c3 a b /\ q_error out = q_error acc)); [|apply SI].
  clear. intros a b S tol acc d ->. intros m m1 m2 SL SR est acc1.
  assert (SL = cubic_integral c0 c1 c2 c3 a m) as EL.
  { unfold SL, m1, m, f, cubic, cubic_integral. qfield. }
  assert (SR = cubic_integral c0 c1 c2 c3 m b) as ER.
  { unfold SR, m2, m, f, cubic, cubic_integral. qfield. }
  assert (cubic_integral c0 c1 c2 c3 a m + cubic_integral c0 c1 c2 c3 m b = cubic_integral c0 c1 c2 c3 a b) as EA.
  { unfold cubic_integral. ring. }
  assert (est = 0) as EE. { unfold est. rewrite EL, ER, EA. qfield. }
  split; [|split; [split; assumption|]].
  - intros _. rewrite EE, Qcabs_0. cbn [q_result q_error]. rewrite EL, ER, EA. split; ring.
  - intros x y (A1 & A2) (B1 & B2). rewrite B1, B2, A1, A2. cbn [acc1 q_result q_error]. split; [|reflexivity]. rewrite <- EA. ring.
Qed.

Lemma between_mid a b : between a b (qc 1 2 * (a + b)).
Proof. destruct (Qcleb_spec a b); [left|right]; split; qc_lra. Qed.
Lemma between_sub a b c d x : between a b c -> between a b d -> between c d x -> between a b x.
Proof. intros [[A B]|[A B]] [[C D]|[C D]] [[E F]|[E F]]; (left; split; qc_lra) || (right; split; qc_lra). Qed.
Lemma between_l a b : between a b a. Proof. destruct (Qcleb_spec a b); [left|right]; split; qc_lra. Qed.
Lemma between_r a b : between a b b. Proof. destruct (Qcleb_spec a b); [left|right]; split; qc_lra. Qed.

Lemma simpson_count f : forall d a b fa fb fm S tol acc,
  (length (q_calls (adaptive_simpson d f a b fa fb fm S tol acc)) + 2 <= length (q_calls acc) + 2 * 2 ^ (d + 1))%nat.
Proof.
  induction d; intros; cbn [adaptive_simpson].
  - cbn [q_calls]. rewrite app_length. cbn. lia.
  - destruct (_ <? _).
    + cbn [q_calls]. rewrite app_length. cbn [length]. assert (2 ^ 1 <= 2 ^ (Datatypes.S d + 1))%nat by (apply Nat.pow_le_mono_r; lia). change (2 ^ 1)%nat with 2%nat in H. lia.
    + eapply Nat.le_trans; [apply IHd|].
      match goal with |- context [q_calls (adaptive_simpson d f a ?m fa ?x ?y ?z ?t ?ac)] => pose proof (IHd a m fa x y z t ac) as H end.
      cbn [q_calls] in H. rewrite app_length in H. cbn [length] in H.
      replace (Datatypes.S d + 1)%nat with (Datatypes.S (d + 1)) by lia. rewrite Nat.pow_succ_r'. lia.
Qed.

Lemma work_top : forall f t0 t1 tol depth, let q := integrate f t0 t1 tol depth in
  (length (q_calls q) <= 1 + 2 * 2 ^ (depth + 1))%nat /\
  (forall x, In x (q_calls q) -> between t0 t1 x) /\ 0 <= q_error q.
Proof.
  intros f t0 t1 tol depth q. split; [|].
  { unfold q, integrate. pose proof (simpson_count f depth t0 t1 (f t0) (f t1) (f (qc 1 2 * (t0 + t1)))
      ((t1 - t0) / qc 6 1 * (f t0 + qc 4 1 * f (qc 1 2 * (t0 + t1)) + f t1)) tol (Quad 0 0 [t0; t1; qc 1 2 * (t0 + t1)])) as H.
    cbn [q_calls length] in H. lia. }
  unfold q, integrate. set (acc := Quad 0 0 _).
  assert (forall x, In x (q_calls acc) -> between t0 t1 x) as HA.
  { intros x [<-|[<-|[<-|[]]]]; [apply between_l|apply between_r|apply between_mid]. }
  assert (0 <= q_error acc) as HE by apply Qcle_refl.
  revert HA HE.
  apply (simpson_ind f (fun a b _ => between t0 t1 a /\ between t0 t1 b) (fun a b acc out =>
    (forall x, In x (q_calls acc) -> between t0 t1 x) -> 0 <= q_error acc ->
    (forall x, In x (q_calls out) -> between t0 t1 x) /\ 0 <= q_error out)); [|split; [apply between_l|apply between_r]].
  clear. intros a b S tol acc d (Ia & Ib). intros m m1 m2 SL SR est acc1.
  assert (between t0 t1 m) as Im by (eapply between_sub; [exact Ia|exact Ib|apply between_mid]).
  assert (between t0 t1 m1) as Im1 by (eapply between_sub; [exact Ia|exact Im|apply between_mid]).
  assert (between t0 t1 m2) as Im2 by (eapply between_sub; [exact Im|exact Ib|apply between_mid]).
  assert (forall acc : quad, (forall x, In x (q_calls acc) -> between t0 t1 x) -> forall x, In x (q_calls acc ++ [m1; m2]) -> between t0 t1 x) as AP.
  { intros ac H x Hx. apply in_app_iff in Hx. destruct Hx as [Hx|[<-|[<-|[]]]]; auto. }
  split; [|split; [auto|]].
  - intros _ H1 H2. cbn [q_calls q_error]. split; [apply AP; assumption|]. pose proof (Qcabs_nonneg est). qc_lra.
  - intros x y HX HY H1 H2. destruct HX as [X1 X2]; [cbn [acc1 q_calls]; apply AP; assumption|assumption|]. apply HY; assumption.
Qed.

Lemma bounds_top : forall f t0 t1 tol depth lo hi, t0 <= t1 -> (forall x, t0 <= x -> x <= t1 -> lo <= f x /\ f x <= hi) ->
  let r := q_result (integrate f t0 t1 tol depth) in lo * (t1 - t0) <= r /\ r <= hi * (t1 - t0).
Proof.
  intros f t0 t1 tol depth lo hi Ht H r. unfold r, integrate. set (acc := Quad 0 0 _).
  enough (q_result acc + lo * (t1 - t0) <= q_result (adaptive_simpson depth f t0 t1 (f t0) (f t1) (f (qc 1 2 * (t0 + t1))) ((t1 - t0) / qc 6 1 * (f t0 + qc 4 1 * f (qc 1 2 * (t0 + t1)) + f t1)) tol acc)
     /\ q_result (adaptive_simpson depth f t0 t1 (f t0) (f t1) (f (qc 1 2 * (t0 + t1))) ((t1 - t0) / qc 6 1 * (f t0 + qc 4 1 * f (qc 1 2 * (t0 + t1)) + f t1)) tol acc) <= q_result acc + hi * (t1 - t0)) as [A B].
  { cbn [acc q_result] in A, B. rewrite Qcplus_0_l in A, B. split; assumption. }
  apply (simpson_ind f (fun a b _ => t0 <= a /\ a <= b /\ b <= t1) (fun a b acc out =>
    q_result acc + lo * (b - a) <= q_result out /\ q_result out <= q_result acc + hi * (b - a)));
    [|split; [apply Qcle_refl|split; [assumption|apply Qcle_refl]]].
  clear - H. intros a b S tol acc d (Ia & Iab & Ib). intros m m1 m2 SL SR est acc1.
  assert (a <= m1 /\ m1 <= m /\ m <= m2 /\ m2 <= b) as (M1 & M2 & M3 & M4) by (unfold m1, m2, m; repeat split; qc_lra).
  assert (forall x y u v w, x <= y -> lo <= u /\ u <= hi -> lo <= v /\ v <= hi -> lo <= w /\ w <= hi ->
    lo * ((y - x) / qc 2 1) <= (y - x) / qc 12 1 * (u + qc 4 1 * v + w) /\ (y - x) / qc 12 1 * (u + qc 4 1 * v + w) <= hi * ((y - x) / qc 2 1)) as BD.
  { intros x y u v w L (U1 & U2) (V1 & V2) (W1 & W2).
    replace ((y - x) / qc 2 1) with ((y - x) * qc 1 2) by qfield. replace ((y - x) / qc 12 1) with ((y - x) * qc 1 12) by qfield.
    assert (0 <= (y - x) * ((u - lo) + qc 4 1 * (v - lo) + (w - lo))) as P1.
    { assert (0 <= y - x) by qc_lra. assert (0 <= (u - lo) + qc 4 1 * (v - lo) + (w - lo)) by qc_lra. qc_nra. }
    assert (0 <= (y - x) * ((hi - u) + qc 4 1 * (hi - v) + (hi - w))) as P2.
    { assert (0 <= y - x) by qc_lra. assert (0 <= (hi - u) + qc 4 1 * (hi - v) + (hi - w)) by qc_lra. qc_nra. }
    clear - P1 P2. split; qc_push; lra. }
  assert (lo * ((b - a) / qc 2 1) <= SL /\ SL <= hi * ((b - a) / qc 2 1)) as [L1 L2] by (apply BD; [assumption|apply H; qc_lra..]).
  assert (lo * ((b - a) / qc 2 1) <= SR /\ SR <= hi * ((b - a) / qc 2 1)) as [R1 R2] by (apply BD; [assumption|apply H; qc_lra..]).
  assert (forall k, k * (b - a) = k * ((b - a) / qc 2 1) + k * ((b - a) / qc 2 1)) as HF by (intros; qfield).
  split; [|split; [split; repeat split; qc_lra|]].
  - intros _. cbn [q_result]. rewrite !HF. clear - L1 L2 R1 R2. split; qc_lra.
  - intros x y (X1 & X2) (Y1 & Y2). cbn [acc1 q_result] in X1, X2.
    assert (forall k, k * (b - a) = k * (m - a) + k * (b - m)) as HK by (intros; ring). rewrite !HK.
    clear - X1 X2 Y1 Y2. split; qc_lra.
Qed.

(** one step of the reversed recursion has the same estimates with opposite sign *)
Lemma flip_half a b x y z : (a - b) / qc 12 1 * (x + qc 4 1 * y + z) = - ((b - a) / qc 12 1 * (z + qc 4 1 * y + x)).
Proof. qfield. Qed.
Lemma flip_est (SL SR S : Qc) : Qcabs ((- SR + - SL - - S) / qc 15 1) = Qcabs ((SL + SR - S) / qc 15 1).
Proof. rewrite <- Qcabs_opp. f_equal. qfield. Qed.
Lemma flip_sum (x1 x2 x3 y1 y2 y3 : Qc) : y3 - y2 = - (x2 - x1) -> y2 - y1 = - (x3 - x2) -> y3 - y1 = - (x3 - x1).
Proof. intros A B. replace (y3 - y1) with ((y3 - y2) + (y2 - y1)) by ring. rewrite A, B. ring. Qed.
Lemma flip_sum' (x1 x2 x3 y1 y2 y3 : Qc) : y3 - y2 = x2 - x1 -> y2 - y1 = x3 - x2 -> y3 - y1 = x3 - x1.
Proof. intros A B. replace (y3 - y1) with ((y3 - y2) + (y2 - y1)) by ring. rewrite A, B. ring. Qed.
Lemma flip_add (r r' x y : Qc) : r' + (- y + - x) - r' = - (r + (x + y) - r).
Proof. ring. Qed.
Lemma flip_add' (r r' x : Qc) : r' + x - r' = r + x - r.
Proof. ring. Qed.

Lemma simpson_flip f : forall d a b fa fb fm S tol acc acc',
  let x := adaptive_simpson d f a b fa fb fm S tol acc in
  let y := adaptive_simpson d f b a fb fa fm (- S) tol acc' in
  q_result y - q_result acc' = - (q_result x - q_result acc) /\ q_error y - q_error acc' = q_error x - q_error acc.
Proof.
  induction d; intros a b fa fb fm S tol acc acc' x y; unfold x, y; clear x y; cbn [adaptive_simpson];
  rewrite (Qcplus_comm b a), (Qcplus_comm b (qc 1 2 * (a + b))), (Qcplus_comm (qc 1 2 * (a + b)) a);
  generalize (f (qc 1 2 * (a + qc 1 2 * (a + b)))), (f (qc 1 2 * (qc 1 2 * (a + b) + b))); intros f1 f2;
  rewrite (flip_half a b fb f2 fm), (flip_half a b fm f1 fa), flip_est;
  generalize ((b - a) / qc 12 1 * (fa + qc 4 1 * f1 + fm)), ((b - a) / qc 12 1 * (fm + qc 4 1 * f2 + fb)); intros SL SR.
  - cbn [q_result q_error]. split; [apply flip_add|apply flip_add'].
  - destruct (_ <? _); [cbn [q_result q_error]; split; [apply flip_add|apply flip_add']|].
    match goal with |- context [adaptive_simpson d f a ?m fa fm f1 SL ?t ?ac] => set (x1 := adaptive_simpson d f a m fa fm f1 SL t ac) end.
    match goal with |- context [adaptive_simpson d f b ?m fb fm f2 (- SR) ?t ?ac] => set (y1 := adaptive_simpson d f b m fb fm f2 (- SR) t ac) end.
    destruct (IHd a (qc 1 2 * (a + b)) fa fm f1 SL (tol / qc 2 1) (Quad (q_result acc) (q_error acc) (q_calls acc ++ [qc 1 2 * (a + qc 1 2 * (a + b)); qc 1 2 * (qc 1 2 * (a + b) + b)])) y1) as (A1 & A2).
    destruct (IHd (qc 1 2 * (a + b)) b fm fb f2 SR (tol / qc 2 1) x1 (Quad (q_result acc') (q_error acc') (q_calls acc' ++ [qc 1 2 * (qc 1 2 * (a + b) + b); qc 1 2 * (a + qc 1 2 * (a + b))]))) as (B1 & B2).
    split; [eapply flip_sum; [exact A1|exact B1]|eapply flip_sum'; [exact A2|exact B2]].
Qed.

Lemma flip_top : forall f t0 t1 tol depth,
  q_result (integrate f t1 t0 tol depth) = - q_result (integrate f t0 t1 tol depth) /\
  q_error (integrate f t1 t0 tol depth) = q_error (integrate f t0 t1 tol depth).
Proof.
  intros f t0 t1 tol depth. unfold integrate. replace (t1 + t0) with (t0 + t1) by ring.
  set (m := qc 1 2 * (t0 + t1)).
  replace ((t0 - t1) / qc 6 1 * (f t1 + qc 4 1 * f m + f t0)) with (- ((t1 - t0) / qc 6 1 * (f t0 + qc 4 1 * f m + f t1))) by qfield.
  destruct (simpson_flip f depth t0 t1 (f t0) (f t1) (f m) ((t1 - t0) / qc 6 1 * (f t0 + qc 4 1 * f m + f t1)) tol (Quad 0 0 [t0; t1; m]) (Quad 0 0 [t1; t0; m])) as (A & B).
  cbn [q_result q_error] in A, B. split.
  - transitivity (q_result (adaptive_simpson depth f t1 t0 (f t1) (f t0) (f m) (- ((t1 - t0) / qc 6 1 * (f t0 + qc 4 1 * f m + f t1))) tol (Quad 0 0 [t1; t0; m])) - 0); [ring|]. rewrite A. ring.
  - transitivity (q_error (adaptive_simpson depth f t1 t0 (f t1) (f t0) (f m) (- ((t1 - t0) / qc 6 1 * (f t0 + qc 4 1 * f m + f t1))) tol (Quad 0 0 [t1; t0; m])) - 0); [ring|]. rewrite B. ring.
Qed.

(** ** find_t1_newton on constant integrands *)
Lemma simpson_ext f g : (forall x, f x = g x) -> forall d a b fa fb fm S tol acc,
  adaptive_simpson d f a b fa fb fm S tol acc = adaptive_simpson d g a b fa fb fm S tol acc.
Proof. intros H. induction d; intros; cbn [adaptive_simpson]; rewrite !H; [reflexivity|]. destruct (_ <? _); [reflexivity|]. rewrite !IHd. reflexivity. Qed.

Lemma const_integral k t0 t tol d : q_result (integrate (fun _ => k) t0 t tol d) = k * (t - t0).
Proof.
  destruct (cubic_top k 0 0 0 t0 t tol d) as [H _].
  assert (forall x, cubic k 0 0 0 x = k) as EC by (intros; unfold cubic; ring).
  assert (forall g, (forall x, g x = k) -> q_result (integrate g t0 t tol d) = q_result (integrate (fun _ => k) t0 t tol d)) as EX.
  { intros g Hg. unfold integrate. rewrite !Hg, (simpson_ext g (fun _ => k)) by exact Hg. reflexivity. }
  rewrite <- (EX _ EC), H. unfold cubic_integral. qfield.
Qed.

Lemma newton_const : forall k t0 I guess tol max_iter, lit_1em10 <= Qcabs k -> (1 <= max_iter)%nat ->
  find_t1_newton t0 I (fun _ => k) guess tol max_iter = Some (t0 + I / k).
Proof.
  intros k t0 I guess tol max_iter HK HM. unfold find_t1_newton.
  assert (k <> 0) as NZ. { intros ->. revert HK. vm_compute. intros HK. apply HK. reflexivity. }
  assert (forall t, t - (q_result (integrate (fun _ => k) t0 t tol max_iter) - I) / k = t0 + I / k) as ST.
  { intros t. rewrite const_integral. field. assumption. }
  assert ((Qcabs k <? lit_1em10) = false) as HB by (qcb; assumption).
  destruct max_iter as [|n]; [lia|]. clear HM. cbn [t1_newton_loop]. rewrite HB, ST.
  destruct (Qcabs (t0 + I / k - guess) <? tol); [reflexivity|]. generalize n at 1. intros it. induction it; cbn [t1_newton_loop]; [reflexivity|]. rewrite HB, ST. destruct (Qcabs (t0 + I / k - (t0 + I / k)) <? tol); [reflexivity|]. exact IHit.
Qed.
Lemma newton_flat : forall t0 I f guess tol max_iter, (1 <= max_iter)%nat -> Qcabs (f guess) < lit_1em10 ->
  find_t1_newton t0 I f guess tol max_iter = None.
Proof.
  intros t0 I f guess tol [|n] H HF; [lia|]. unfold find_t1_newton. cbn [t1_newton_loop].
  assert ((Qcabs (f guess) <? lit_1em10) = true) as -> by (qcb; assumption). reflexivity.
Qed.
