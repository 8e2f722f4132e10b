(** Newton's method: finite differences, line search, descent. *)
From Coq Require Import List ZArith Reals Lia Lra Bool.
From Verif Require Import Base LoopFacts ModelNewton SpecNewton ProofCholesky.
Import ListNotations.
Open Scope R_scope.

(** q is p with d added to component i *)
Definition bump (p : rvec) (i : nat) (d : R) (q : rvec) : Prop :=
  length q = length p /\ forall k, (k < length p)%nat -> vat q k = vat p k + (if Nat.eqb k i then d else 0).
Definition bump2 (p : rvec) (i : nat) (d : R) (j : nat) (e : R) (q : rvec) : Prop :=
  length q = length p /\ forall k, (k < length p)%nat -> vat q k = vat p k + ((if Nat.eqb k i then d else 0) + (if Nat.eqb k j then e else 0)).

Lemma vec_ext (a b : rvec) : length a = length b -> (forall k, (k < length a)%nat -> vat a k = vat b k) -> a = b.
Proof. intros L H. apply (nth_ext_len _ _ 0 L). exact H. Qed.
Lemma vset_ok (v : rvec) i x : (i < length v)%nat -> exists v', set_nth v i x = Ok v' /\ length v' = length v /\
  forall k, vat v' k = if Nat.eqb k i then x else vat v k.
Proof. intros H. destruct (set_nth_ok v i x H) as (v' & E & L & N). exists v'. split; [exact E|]. split; [exact L|]. intros. apply N. Qed.
Lemma vget_ok (v : rvec) i : (i < length v)%nat -> get v i = Ok (vat v i).
Proof. intros H. apply get_ok. assumption. Qed.

Lemma gradient_ok n f (point : rvec) h : length point = n -> h <> 0 -> exists g, computeGradient n f point h = Ok g /\ length g = n /\
  forall i, (i < n)%nat -> exists pf pb, bump point i h pf /\ bump point i (- h) pb /\ vat g i = (f pf - f pb) / (2 * h).
Proof.
  intros Hp Hh. unfold computeGradient.
  destruct (for_up_inv (fun i (st : rvec * rvec * rvec) => let '(g, pf, pb) := st in pf = point /\ pb = point /\ length g = n /\
    forall a, (a < i)%nat -> exists pf pb, bump point a h pf /\ bump point a (- h) pb /\ vat g a = (f pf - f pb) / (2 * h))
    (grad_cell f point h) n 0 (vzero n, point, point)) as ([[g pf] pb] & E & (_ & _ & Lg & G)).
  - split; [reflexivity|]. split; [reflexivity|]. split; [apply repeat_length|]. intros; lia.
  - intros i [[g pf] pb] _ Hi (-> & -> & Lg & G). unfold grad_cell. rewrite vget_ok by lia. cbn [bind].
    destruct (vset_ok point i (vat point i + h)) as (pf & Ef & Lf & Nf); [lia|]. rewrite Ef. cbn [bind].
    destruct (vset_ok point i (vat point i - h)) as (pb & Eb & Lb & Nb); [lia|]. rewrite Eb. cbn [bind].
    rewrite rdiv_ok by lra. cbn [bind].
    destruct (vset_ok g i ((f pf - f pb) / (2 * h))) as (g' & Eg & Lg' & Ng); [lia|]. rewrite Eg. cbn [bind].
    destruct (vset_ok pf i (vat point i)) as (pf' & Ef' & Lf' & Nf'); [lia|]. rewrite Ef'. cbn [bind].
    destruct (vset_ok pb i (vat point i)) as (pb' & Eb' & Lb' & Nb'); [lia|]. rewrite Eb'. cbn [bind].
    eexists. split; [reflexivity|]. split; [|split; [|split; [lia|]]].
    + apply vec_ext; [lia|]. intros k Hk. rewrite Nf', Nf. destruct (Nat.eqb_spec k i); subst; reflexivity.
    + apply vec_ext; [lia|]. intros k Hk. rewrite Nb', Nb. destruct (Nat.eqb_spec k i); subst; reflexivity.
    + intros a Ha. rewrite Ng. destruct (Nat.eqb_spec a i) as [->|]; [|apply G; lia].
      exists pf, pb. split; [|split; [|reflexivity]]; (split; [lia|]); intros k Hk; rewrite ?Nf, ?Nb; destruct (Nat.eqb_spec k i); subst; ring.
  - rewrite E. cbn [bind]. exists g. split; [reflexivity|]. split; [exact Lg|]. exact G.
Qed.

Definition hess_entry (f : rvec -> R) (point : rvec) (h : R) (i j : nat) (x : R) : Prop :=
  (i = j -> exists pf pb, bump point i h pf /\ bump point i (- h) pb /\ x = (f pf - 2 * f point + f pb) / (h * h)) /\
  (i <> j -> exists pp pm mp mm, bump2 point i h j h pp /\ bump2 point i h j (- h) pm /\ bump2 point i (- h) j h mp /\ bump2 point i (- h) j (- h) mm /\
     x = (f pp - f pm - f mp + f mm) / (4 * h * h)).

Lemma hess_entry_sym f point h i j x : hess_entry f point h i j x -> hess_entry f point h j i x.
Proof.
  intros (A & B). split; intros E.
  - subst. apply A. reflexivity.
  - destruct (B ltac:(congruence)) as (pp & pm & mp & mm & (L1 & N1) & (L2 & N2) & (L3 & N3) & (L4 & N4) & ->).
    exists pp, mp, pm, mm. split; [|split; [|split; [|split]]]; try (split; [assumption|]; intros k Hk; rewrite ?N1, ?N2, ?N3, ?N4 by assumption; ring).
    f_equal. ring.
Qed.

Lemma hessian_ok n f (point : rvec) h : length point = n -> h <> 0 -> exists H, computeHessian n f point h = Ok H /\ msq n H /\
  forall i j, (i < n)%nat -> (j < n)%nat -> hess_entry f point h i j (ment H i j).
Proof.
  intros Hp Hh. unfold computeHessian.
  assert (h * h <> 0) as Hhh by (apply Rmult_integral_contrapositive_currified; assumption).
  destruct (for_up_inv (fun i (st : rvec * rvec * rvec) => let '(ff, fb, pp) := st in pp = point /\ length ff = n /\ length fb = n /\
    forall a, (a < i)%nat -> exists pf pb, bump point a h pf /\ bump point a (- h) pb /\ vat ff a = f pf /\ vat fb a = f pb)
    (hess_pre f point h) n 0 (vzero n, vzero n, point)) as ([[ff fb] pp] & E & (-> & Lff & Lfb & G)).
  - split; [reflexivity|]. split; [apply repeat_length|]. split; [apply repeat_length|]. intros; lia.
  - intros i [[ff fb] pp] _ Hi (-> & Lff & Lfb & G). unfold hess_pre. rewrite vget_ok by lia. cbn [bind].
    destruct (vset_ok point i (vat point i + h)) as (p1 & E1 & L1 & N1); [lia|]. rewrite E1. cbn [bind].
    destruct (vset_ok ff i (f p1)) as (ff' & E2 & L2 & N2); [lia|]. rewrite E2. cbn [bind].
    destruct (vset_ok p1 i (vat point i - h)) as (p2 & E3 & L3 & N3); [lia|]. rewrite E3. cbn [bind].
    destruct (vset_ok fb i (f p2)) as (fb' & E4 & L4 & N4); [lia|]. rewrite E4. cbn [bind].
    destruct (vset_ok p2 i (vat point i)) as (p3 & E5 & L5 & N5); [lia|]. rewrite E5. cbn [bind].
    eexists. split; [reflexivity|]. split; [|split; [lia|split; [lia|]]].
    + apply vec_ext; [lia|]. intros k Hk. rewrite N5, N3, N1. destruct (Nat.eqb_spec k i); subst; reflexivity.
    + intros a Ha. rewrite N2, N4. destruct (Nat.eqb_spec a i) as [->|]; [|apply G; lia].
      exists p1, p2. split; [|split; [|split; reflexivity]]; (split; [lia|]); intros k Hk; rewrite ?N3, ?N1; destruct (Nat.eqb_spec k i); subst; ring.
  - rewrite E. cbn [bind].
    destruct (for_up_inv (fun i (st : rmat * rvec) => let '(H, pp) := st in pp = point /\ msq n H /\
      forall a b, (a < n)%nat -> (b < n)%nat -> (a < i \/ b < i)%nat -> hess_entry f point h a b (ment H a b))
      (hess_row n f point h (f point) ff fb) n 0 (mzero n, point)) as ([H pp] & EH & (-> & SQ & EN)).
    + split; [reflexivity|]. split; [apply mzero_sq|]. intros; lia.
    + intros i [H pp] _ Hi (-> & SQ & EN). unfold hess_row. rewrite !vget_ok by lia. cbn [bind]. rewrite rdiv_ok by assumption. cbn [bind].
      destruct (G i Hi) as (pf & pb & Bf & Bb & -> & ->).
      destruct (mset_ok n H i i ((f pf - 2 * f point + f pb) / (h * h)) SQ Hi Hi) as (H1 & E1 & SQ1 & N1). rewrite E1. cbn [bind].
      destruct (for_up_inv (fun j (st : rmat * rvec) => let '(H, pp) := st in pp = point /\ msq n H /\
        forall a b, (a < n)%nat -> (b < n)%nat -> (a < i \/ b < i \/ (a = i /\ b < j) \/ (b = i /\ a < j))%nat -> hess_entry f point h a b (ment H a b))
        (hess_off f point h i) (n - (i + 1)) (i + 1) (H1, point)) as ([H2 pp] & E2 & (-> & SQ2 & EN2)).
      * split; [reflexivity|]. split; [exact SQ1|]. intros a b Ha Hb Hab. rewrite N1.
        destruct (Nat.eqb_spec a i) as [->|], (Nat.eqb_spec b i) as [->|]; cbn [andb]; try (apply EN; lia).
        split; [|contradiction]. intros _. exists pf, pb. auto.
      * intros j [H2 pp] Hj1 Hj2 (-> & SQ2 & EN2). unfold hess_off. rewrite !vget_ok by lia. cbn [bind].
        destruct (vset_ok point i (vat point i + h)) as (q1 & F1 & L1 & M1); [lia|]. rewrite F1. cbn [bind].
        destruct (vset_ok q1 j (vat point j + h)) as (q2 & F2 & L2 & M2); [lia|]. rewrite F2. cbn [bind].
        destruct (vset_ok q2 j (vat point j - h)) as (q3 & F3 & L3 & M3); [lia|]. rewrite F3. cbn [bind].
        destruct (vset_ok q3 i (vat point i - h)) as (q4 & F4 & L4 & M4); [lia|]. rewrite F4. cbn [bind].
        destruct (vset_ok q4 j (vat point j + h)) as (q5 & F5 & L5 & M5); [lia|]. rewrite F5. cbn [bind].
        destruct (vset_ok q5 j (vat point j - h)) as (q6 & F6 & L6 & M6); [lia|]. rewrite F6. cbn [bind].
        assert (4 * h * h <> 0) as H4 by lra. rewrite rdiv_ok by assumption. cbn [bind].
        set (d := (f q2 - f q3 - f q5 + f q6) / (4 * h * h)).
        destruct (mset_ok n H2 j i d SQ2 ltac:(lia) Hi) as (H3 & E3 & SQ3 & N3). rewrite E3. cbn [bind].
        destruct (mset_ok n H3 i j d SQ3 Hi ltac:(lia)) as (H4' & E4 & SQ4 & N4). rewrite E4. cbn [bind].
        destruct (vset_ok q6 i (vat point i)) as (q7 & F7 & L7 & M7); [lia|]. rewrite F7. cbn [bind].
        destruct (vset_ok q7 j (vat point j)) as (q8 & F8 & L8 & M8); [lia|]. rewrite F8. cbn [bind].
        assert (hess_entry f point h i j d) as ED.
        { split; [lia|]. intros _. exists q2, q3, q5, q6. unfold bump2.
          split; [|split; [|split; [|split; [|reflexivity]]]]; (split; [lia|]); intros k Hk; rewrite ?M6, ?M5, ?M4, ?M3, ?M2, ?M1;
            destruct (Nat.eqb_spec k j), (Nat.eqb_spec k i); subst; try lia; ring. }
        eexists. split; [reflexivity|]. split; [|split; [exact SQ4|]].
        -- apply vec_ext; [lia|]. intros k Hk. rewrite M8, M7, M6, M5, M4, M3, M2, M1. destruct (Nat.eqb_spec k j), (Nat.eqb_spec k i); subst; reflexivity.
        -- intros a b Ha Hb Hab. rewrite N4, N3.
           destruct (Nat.eqb_spec a i) as [->|NA], (Nat.eqb_spec b j) as [->|NB]; cbn [andb]; [exact ED| | |];
             destruct (Nat.eqb_spec a j) as [->|NA'] || idtac; destruct (Nat.eqb_spec b i) as [->|NB'] || idtac; cbn [andb];
             try (apply hess_entry_sym; exact ED); try (apply EN2; lia).
           all: repeat match goal with |- context[Nat.eqb ?u ?v] => destruct (Nat.eqb_spec u v); subst; cbn [andb] end; try lia; try (apply EN2; lia); try (apply hess_entry_sym; exact ED).
      * exists (H2, point). split; [exact E2|]. split; [reflexivity|]. split; [exact SQ2|]. intros a b Ha Hb Hab. apply EN2; lia.
    + rewrite EH. cbn [bind]. exists H. split; [reflexivity|]. split; [exact SQ|]. intros. apply EN; lia.
Qed.

(** ** exactness on quadratics *)
Lemma quad_form_ext n A x y : (forall i, (i < n)%nat -> x i = y i) -> quad_form n A x = quad_form n A y.
Proof. intros H. apply rsum_ext. intros i Hi. apply rsum_ext. intros j Hj. rewrite !H by assumption. reflexivity. Qed.
Lemma quadratic_shift n c b A p q d : symmetric n A -> (forall k, (k < n)%nat -> vat q k = vat p k + d k) ->
  quadratic n c b A q = quadratic n c b A p + rsum (fun i => d i * (vat b i + rsum (fun j => ment A i j * vat p j) n)) n + quad_form n A d / 2.
Proof.
  intros Sy H. unfold quadratic.
  rewrite (rsum_ext (fun i => vat b i * vat q i) (fun i => vat b i * vat p i + vat b i * d i)) by (intros; rewrite H by assumption; ring).
  rewrite rsum_add.
  assert (quad_form n A (vat q) = quad_form n A (vat p) + 2 * rsum (fun i => d i * rsum (fun j => ment A i j * vat p j) n) n + quad_form n A d) as ->.
  { rewrite (quad_form_ext n A (vat q) (fun k => vat p k + d k) H). unfold quad_form.
    transitivity (rsum (fun i => rsum (fun j => vat p i * ment A i j * vat p j) n + rsum (fun j => vat p i * ment A i j * d j) n + rsum (fun j => d i * ment A i j * vat p j) n + rsum (fun j => d i * ment A i j * d j) n) n).
    { apply rsum_ext. intros i _. rewrite <- !rsum_add. apply rsum_ext. intros. ring. }
    rewrite !rsum_add.
    assert (rsum (fun i => rsum (fun j => d i * ment A i j * vat p j) n) n = rsum (fun i => d i * rsum (fun j => ment A i j * vat p j) n) n) as E1.
    { apply rsum_ext. intros i _. rewrite <- rsum_scale. apply rsum_ext. intros. ring. }
    assert (rsum (fun i => rsum (fun j => vat p i * ment A i j * d j) n) n = rsum (fun i => d i * rsum (fun j => ment A i j * vat p j) n) n) as E2.
    { rewrite rsum_swap. apply rsum_ext. intros j Hj. rewrite <- rsum_scale. apply rsum_ext. intros i Hi. rewrite (Sy i j) by assumption. ring. }
    rewrite E1, E2. ring. }
  rewrite (rsum_ext (fun i => d i * (vat b i + rsum (fun j => ment A i j * vat p j) n)) (fun i => vat b i * d i + d i * rsum (fun j => ment A i j * vat p j) n)) by (intros; ring).
  rewrite rsum_add. field.
Qed.

Lemma single_sum n i d (g : nat -> R) : (i < n)%nat -> rsum (fun k => (if Nat.eqb k i then d else 0) * g k) n = d * g i.
Proof. intros H. rewrite (rsum_point _ n i H); [rewrite Nat.eqb_refl; reflexivity|]. intros k _ Nk. destruct (Nat.eqb_spec k i); [contradiction|ring]. Qed.
Lemma single_form n A i d : (i < n)%nat -> quad_form n A (fun k => if Nat.eqb k i then d else 0) = d * d * ment A i i.
Proof.
  intros H. unfold quad_form. transitivity (rsum (fun a => (if Nat.eqb a i then d else 0) * (d * ment A a i)) n).
  - apply rsum_ext. intros a Ha. transitivity (rsum (fun b => (if Nat.eqb b i then d else 0) * ((if Nat.eqb a i then d else 0) * ment A a b)) n).
    + apply rsum_ext. intros. ring.
    + rewrite single_sum by assumption. ring.
  - rewrite single_sum by assumption. ring.
Qed.
Lemma double_form n A i d j e : symmetric n A -> (i < n)%nat -> (j < n)%nat ->
  quad_form n A (fun k => (if Nat.eqb k i then d else 0) + (if Nat.eqb k j then e else 0)) = d * d * ment A i i + 2 * d * e * ment A i j + e * e * ment A j j.
Proof.
  intros Sy Hi Hj. unfold quad_form.
  transitivity (rsum (fun a => (if Nat.eqb a i then d else 0) * (d * ment A a i + e * ment A a j)) n + rsum (fun a => (if Nat.eqb a j then e else 0) * (d * ment A a i + e * ment A a j)) n).
  - rewrite <- rsum_add. apply rsum_ext. intros a Ha.
    transitivity (rsum (fun b => (if Nat.eqb b i then d else 0) * (((if Nat.eqb a i then d else 0) + (if Nat.eqb a j then e else 0)) * ment A a b)) n
      + rsum (fun b => (if Nat.eqb b j then e else 0) * (((if Nat.eqb a i then d else 0) + (if Nat.eqb a j then e else 0)) * ment A a b)) n).
    + rewrite <- rsum_add. apply rsum_ext. intros. ring.
    + rewrite !single_sum by assumption. ring.
  - rewrite !single_sum by assumption. rewrite (Sy j i) by assumption. ring.
Qed.

Lemma bump_value n c b A p i d q : symmetric n A -> length p = n -> (i < n)%nat -> bump p i d q ->
  quadratic n c b A q = quadratic n c b A p + d * (vat b i + rsum (fun j => ment A i j * vat p j) n) + d * d * ment A i i / 2.
Proof.
  intros Sy Lp Hi (Lq & N). rewrite Lp in N. rewrite (quadratic_shift n c b A p q _ Sy N), single_sum, single_form by assumption. reflexivity.
Qed.
Lemma bump2_value n c b A p i d j e q : symmetric n A -> length p = n -> (i < n)%nat -> (j < n)%nat -> bump2 p i d j e q ->
  quadratic n c b A q = quadratic n c b A p + d * (vat b i + rsum (fun j => ment A i j * vat p j) n) + e * (vat b j + rsum (fun k => ment A j k * vat p k) n)
    + (d * d * ment A i i + 2 * d * e * ment A i j + e * e * ment A j j) / 2.
Proof.
  intros Sy Lp Hi Hj (Lq & N). rewrite Lp in N. rewrite (quadratic_shift n c b A p q _ Sy N), double_form by assumption.
  rewrite (rsum_ext _ (fun k => (if Nat.eqb k i then d else 0) * (vat b k + rsum (fun j => ment A k j * vat p j) n) + (if Nat.eqb k j then e else 0) * (vat b k + rsum (fun j => ment A k j * vat p j) n))) by (intros; ring).
  rewrite rsum_add, !single_sum by assumption. ring.
Qed.

Lemma differences_top : forall n c b A point h, symmetric n A -> length point = n -> h <> 0 ->
  (exists g, computeGradient n (quadratic n c b A) point h = Ok g /\ length g = n /\
     forall i, (i < n)%nat -> vat g i = vat b i + rsum (fun j => ment A i j * vat point j) n) /\
  (exists H, computeHessian n (quadratic n c b A) point h = Ok H /\ msq n H /\
     forall i j, (i < n)%nat -> (j < n)%nat -> ment H i j = ment A i j).
Proof.
  intros n c b A point h Sy Lp Hh. split.
  - destruct (gradient_ok n (quadratic n c b A) point h Lp Hh) as (g & E & L & G). exists g. split; [exact E|]. split; [exact L|].
    intros i Hi. destruct (G i Hi) as (pf & pb & Bf & Bb & ->).
    rewrite (bump_value n c b A point i h pf Sy Lp Hi Bf), (bump_value n c b A point i (- h) pb Sy Lp Hi Bb). field. assumption.
  - destruct (hessian_ok n (quadratic n c b A) point h Lp Hh) as (H & E & SQ & G). exists H. split; [exact E|]. split; [exact SQ|].
    intros i j Hi Hj. destruct (G i j Hi Hj) as (G1 & G2). destruct (Nat.eq_dec i j) as [<-|NE].
    + destruct (G1 eq_refl) as (pf & pb & Bf & Bb & ->).
      rewrite (bump_value n c b A point i h pf Sy Lp Hi Bf), (bump_value n c b A point i (- h) pb Sy Lp Hi Bb). field. assumption.
    + destruct (G2 NE) as (pp & pm & mp & mm & B1 & B2 & B3 & B4 & ->).
      rewrite (bump2_value n c b A point i h j h pp Sy Lp Hi Hj B1), (bump2_value n c b A point i h j (- h) pm Sy Lp Hi Hj B2),
        (bump2_value n c b A point i (- h) j h mp Sy Lp Hi Hj B3), (bump2_value n c b A point i (- h) j (- h) mm Sy Lp Hi Hj B4). field. assumption.
Qed.

(** ** descent *)
Lemma rdot_sum : forall a b : rvec, length a = length b -> rdot a b = rsum (fun i => vat a i * vat b i) (length a).
Proof.
  intros a b. unfold rdot.
  assert (forall (a b : rvec) acc, length a = length b -> fold_left (fun acc p => acc + fst p * snd p) (combine a b) acc = acc + rsum (fun i => vat a i * vat b i) (length a)) as G.
  { clear. induction a as [|x a IH]; intros [|y b] acc L; cbn in L; try lia; cbn [combine fold_left length].
    - cbn. ring.
    - rewrite IH by lia. cbn [fst snd]. change (S (length a)) with (1 + length a)%nat. rewrite rsum_split. cbn [rsum].
      unfold vat. cbn [nth Nat.add]. ring. }
  intros L. rewrite G by assumption. ring.
Qed.

Lemma line_ok f point direction gd : gd <= 0 -> forall k alpha, 0 < alpha ->
  let r := line_loop k f point direction (f point) gd alpha in r = 0 \/ (0 < r /\ f (shifted point r direction) <= f point).
Proof.
  intros G. induction k; intros alpha P; cbn [line_loop].
  - destruct (Rle_dec _ _) as [L|]; [|left; reflexivity]. right. split; [assumption|].
    assert (0 <= r_1em4) by (unfold r_1em4, rlit; lra). assert (0 <= r_1em4 * alpha) by (apply Rmult_le_pos; lra).
    assert (0 <= r_1em4 * alpha * - gd) by (apply Rmult_le_pos; lra). lra.
  - destruct (Rle_dec _ _) as [L|]; [|apply IHk; lra]. right. split; [assumption|].
    assert (0 <= r_1em4) by (unfold r_1em4, rlit; lra). assert (0 <= r_1em4 * alpha) by (apply Rmult_le_pos; lra).
    assert (0 <= r_1em4 * alpha * - gd) by (apply Rmult_le_pos; lra). lra.
Qed.

Lemma search_first f point direction grad : f (shifted point 1 direction) <= f point + r_1em4 * 1 * rdot grad direction -> lineSearch f point direction grad = 1.
Proof.
  intros L. unfold lineSearch. generalize 1074%nat. intros k. destruct k; cbn [line_loop]; destruct (Rle_dec _ _); contradiction || reflexivity.
Qed.
Lemma search_ok f point direction grad : rdot grad direction <= 0 ->
  lineSearch f point direction grad = 0 \/
  (0 < lineSearch f point direction grad /\ f (shifted point (lineSearch f point direction grad) direction) <= f point).
Proof. intros G. apply (line_ok f point direction _ G 1074 1 Rlt_0_1). Qed.

Lemma shifted_at point alpha d k : length point = length d -> (k < length point)%nat -> vat (shifted point alpha d) k = vat point k + alpha * vat d k.
Proof.
  revert d k. induction point as [|x p IH]; intros [|y d] k L Hk; cbn in *; try lia. destruct k; [reflexivity|]. apply IH; lia.
Qed.
Lemma shifted_len point alpha d : length point = length d -> length (shifted point alpha d) = length point.
Proof. intros L. unfold shifted. rewrite map_length, combine_length. lia. Qed.

Lemma update_ok n alpha tol (step point : rvec) : length point = n -> length step = n ->
  exists c, for_up n 0 (update_cell alpha tol step) (point, true) = Ok (shifted point alpha step, c) /\
    (c = true -> forall i, (i < n)%nat -> Rabs (alpha * vat step i) < tol * Rmax 1 (Rabs (vat (shifted point alpha step) i))).
Proof.
  intros Lp Ls.
  destruct (for_up_inv (fun i (st : rvec * bool) => length (fst st) = n /\ forall k, (k < n)%nat -> vat (fst st) k = vat point k + (if Nat.ltb k i then alpha * vat step k else 0) /\
      ((k < i)%nat -> snd st = true -> Rabs (alpha * vat step k) < tol * Rmax 1 (Rabs (vat (fst st) k))))
    (update_cell alpha tol step) n 0 (point, true)) as ([p c] & E & (L & N)).
  - split; [assumption|]. intros k Hk. cbn [fst]. split; [destruct (Nat.ltb_spec k 0); [lia|ring]|lia].
  - intros i [p c] _ Hi (L & N). cbn [fst snd] in *. unfold update_cell. rewrite !vget_ok by lia. cbn [bind].
    destruct (vset_ok p i (vat p i + alpha * vat step i)) as (p' & E & L' & N'); [lia|]. rewrite E. cbn [bind]. rewrite vget_ok by lia. cbn [bind].
    eexists. split; [reflexivity|]. cbn [fst snd]. split; [lia|]. intros k Hk. destruct (N k Hk) as (N1 & N2). split.
    + rewrite N'. destruct (Nat.eqb_spec k i) as [->|].
      * rewrite N1. destruct (Nat.ltb_spec i i); [lia|]. destruct (Nat.ltb_spec i (S i)); [|lia]. ring.
      * rewrite N1. destruct (Nat.ltb_spec k i), (Nat.ltb_spec k (S i)); try lia; reflexivity.
    + intros Hki. destruct (Rle_dec _ _) as [|NL]; [discriminate|]. intros ->. rewrite (N' k). destruct (Nat.eqb_spec k i) as [->|]; [|apply N2; [lia|reflexivity]].
      rewrite (N' i), Nat.eqb_refl in NL. lra.
  - assert (p = shifted point alpha step) as EP.
    { apply vec_ext; [rewrite shifted_len; cbn [fst] in L; lia|].
      intros k Hk. cbn [fst] in *. rewrite (proj1 (N k ltac:(lia))), shifted_at by lia. destruct (Nat.ltb_spec k (0 + n)); [reflexivity|lia]. }
    exists c. rewrite E, EP. split; [reflexivity|]. intros -> i Hi. cbn [fst snd] in N. rewrite <- EP. apply (proj2 (N i Hi)); [lia|reflexivity].
Qed.

Lemma add_diag_ok n mu (H : rmat) : msq n H -> exists H', add_diag n mu H = Ok H' /\ msq n H'.
Proof.
  intros SQ. unfold add_diag. destruct (for_up_inv (fun _ m => msq n m) (fun i m => x <- mget m i i ;; mset m i i (x + mu)) n 0 H SQ) as (H' & E & R); [|eauto].
  intros i m _ Hi Sm. rewrite (mget_ok n) by assumption. cbn [bind]. destruct (mset_ok n m i i (ment m i i + mu) Sm Hi Hi) as (m' & E & S' & _). eauto.
Qed.

Lemma mu_ok n (y0 : rvec) (H : rmat) (grad : rvec) : msq n H -> length y0 = n -> length grad = n -> forall fuel (step : rvec) mu, length step = n -> 1000000 < mu * 10 ^ fuel -> 0 < mu ->
  exists ok step', mu_loop fuel n y0 H grad step mu = Ok (ok, step') /\ length step' = n /\ (ok = true -> 0 <= rsum (fun i => vat grad i * vat step' i) n).
Proof.
  intros SQ Ly Lg. induction fuel; intros step mu Ls B P; cbn [mu_loop].
  - destruct (Rle_dec mu 1000000) as [C|C]; [exfalso; cbn in B; lra|]. exists false, step. split; [reflexivity|]. split; [assumption|discriminate].
  - destruct (Rle_dec mu 1000000) as [C|C]; [|exists false, step; split; [reflexivity|]; split; [assumption|discriminate]].
    destruct (add_diag_ok n mu H SQ) as (Hm & -> & SQm). cbn [bind].
    destruct (solve_ok n y0 Hm grad step SQm Lg Ls Ly) as (ok & x' & -> & Lx & _ & D & _). cbn [bind]. destruct ok.
    + exists true, x'. auto.
    + apply IHfuel; [assumption| |lra]. cbn [pow] in B. lra.
Qed.

Lemma newton_ok n y0 f tol : (forall k, length (y0 k) = n) -> forall iters (step point : rvec), length step = n -> length point = n ->
  exists p, newton_loop iters n y0 f tol step point = Ok p /\ length p = n /\ f p <= f point.
Proof.
  intros Ly. induction iters; intros step point Ls Lp; cbn [newton_loop].
  - exists point. split; [reflexivity|]. split; [assumption|lra].
  - destruct (gradient_ok n f point r_1em7 Lp) as (grad & -> & Lg & _); [unfold r_1em7, rlit; lra|]. cbn [bind].
    destruct (hessian_ok n f point r_1em5 Lp) as (H & -> & SQ & _); [unfold r_1em5, rlit; lra|]. cbn [bind].
    destruct (mu_ok n (y0 iters) H grad SQ (Ly iters) Lg 13 step r_1em6 Ls) as (ok & st & -> & Lst & D); [unfold r_1em6, rlit; cbn [pow]; lra|unfold r_1em6, rlit; lra|].
    cbn [bind]. destruct ok; [|exists point; split; [reflexivity|]; split; [assumption|lra]].
    specialize (D eq_refl). set (dir := map Ropp st). assert (length dir = n) as Ld by (unfold dir; rewrite map_length; assumption).
    assert (rdot grad dir <= 0) as GD.
    { rewrite rdot_sum by congruence. rewrite Lg. rewrite (rsum_ext _ (fun i => (-1) * (vat grad i * vat st i))).
      - rewrite rsum_scale. lra.
      - intros i Hi. unfold dir, vat. rewrite (nth_indep (map Ropp st) 0 (- 0)) by (rewrite map_length; lia). rewrite map_nth. ring. }
    destruct (search_ok f point dir grad GD) as [Z|(P & LE)].
    + rewrite Z. destruct (Req_EM_T 0 0); [|contradiction]. exists point. split; [reflexivity|]. split; [assumption|lra].
    + destruct (Req_EM_T (lineSearch f point dir grad) 0); [exfalso; lra|].
      destruct (update_ok n (lineSearch f point dir grad) tol dir point Lp Ld) as (c & -> & _). cbn [bind].
      assert (length (shifted point (lineSearch f point dir grad) dir) = n) as Lsh by (rewrite shifted_len; congruence).
      destruct c; [eexists; split; [reflexivity|]; split; assumption|].
      destruct (IHiters dir _ Ld Lsh) as (p & -> & Lp' & LE'). exists p. split; [reflexivity|]. split; [assumption|lra].
Qed.

Lemma newton_top : forall n y0 f point tol maxIter, (forall k, length (y0 k) = n) -> length point = n ->
  exists p, newtonsMethod n y0 f point tol maxIter = Ok p /\ length p = n /\ f p <= f point.
Proof. intros. unfold newtonsMethod. apply newton_ok; try assumption. apply repeat_length. Qed.

Lemma solve_top : forall n y0 H b x, msq n H -> symmetric n H -> length b = n -> length x = n -> length y0 = n ->
  exists ok x', solve_linear n y0 H b x = Ok (ok, x') /\ length x' = n /\ (ok = true <-> positive_definite n H) /\
    (ok = true -> solves n H x' b) /\ (ok = false -> x' = x).
Proof.
  intros n y0 H b x SQ Sy Hb Hx Hy. destruct (solve_ok n y0 H b x SQ Hb Hx Hy) as (ok & x' & E & L & F & _ & Q). destruct (Q Sy) as (Q1 & Q2).
  exists ok, x'. auto 10.
Qed.

Lemma mu_first k n y0 (H M : rmat) grad step mu st : mu <= 1000000 -> add_diag n mu H = Ok M -> solve_linear n y0 M grad step = Ok (true, st) ->
  mu_loop (S k) n y0 H grad step mu = Ok (true, st).
Proof. intros L E1 E2. cbn [mu_loop]. destruct (Rle_dec _ _); [|contradiction]. rewrite E1. cbn [bind]. rewrite E2. reflexivity. Qed.

(** ** convergence on a convex quadratic *)
Lemma add_diag_ent n mu (H : rmat) : msq n H -> exists H', add_diag n mu H = Ok H' /\ msq n H' /\
  forall i j, (i < n)%nat -> (j < n)%nat -> ment H' i j = ment H i j + (if Nat.eqb i j then mu else 0).
Proof.
  intros SQ. unfold add_diag.
  destruct (for_up_inv (fun k m => msq n m /\ forall i j, (i < n)%nat -> (j < n)%nat -> ment m i j = ment H i j + (if Nat.eqb i j then if Nat.ltb i k then mu else 0 else 0))
    (fun i m => x <- mget m i i ;; mset m i i (x + mu)) n 0 H) as (H' & E & (S' & N)).
  - split; [exact SQ|]. intros i j _ _. destruct (Nat.eqb i j); [|ring]. destruct (Nat.ltb_spec i 0); [lia|ring].
  - intros k m _ Hk (Sm & N). rewrite (mget_ok n) by assumption. cbn [bind]. destruct (mset_ok n m k k (ment m k k + mu) Sm Hk Hk) as (m' & E & S' & N').
    exists m'. split; [exact E|]. split; [exact S'|]. intros i j Hi Hj. rewrite N', (N i j Hi Hj).
    destruct (Nat.eqb_spec i k) as [->|], (Nat.eqb_spec j k) as [->|]; cbn [andb].
    + rewrite N by assumption. rewrite Nat.eqb_refl. destruct (Nat.ltb_spec k k); [lia|]. destruct (Nat.ltb_spec k (S k)); [|lia]. ring.
    + destruct (Nat.eqb_spec k j); [subst; contradiction|reflexivity].
    + destruct (Nat.eqb_spec i k); [subst; contradiction|reflexivity].
    + destruct (Nat.eqb_spec i j); [|reflexivity]. destruct (Nat.ltb_spec i k), (Nat.ltb_spec i (S k)); try lia; reflexivity.
  - exists H'. split; [exact E|]. split; [exact S'|]. intros i j Hi Hj. rewrite N by assumption. destruct (Nat.ltb_spec i (0 + n)); [reflexivity|lia].
Qed.

Lemma diag_row n (A M : rmat) mu x i : (forall i j, (i < n)%nat -> (j < n)%nat -> ment M i j = ment A i j + (if Nat.eqb i j then mu else 0)) -> (i < n)%nat ->
  rsum (fun j => ment M i j * x j) n = rsum (fun j => ment A i j * x j) n + mu * x i.
Proof.
  intros D Hi. rewrite (rsum_ext _ (fun j => ment A i j * x j + (if Nat.eqb j i then mu else 0) * x j)).
  - rewrite rsum_add, single_sum by assumption. reflexivity.
  - intros j Hj. rewrite D by assumption. rewrite (Nat.eqb_sym i j). ring.
Qed.
Lemma form_rows n A x : quad_form n A x = rsum (fun i => x i * rsum (fun j => ment A i j * x j) n) n.
Proof. unfold quad_form. apply rsum_ext. intros i _. rewrite <- rsum_scale. apply rsum_ext. intros. ring. Qed.
Lemma diag_form n (A M : rmat) mu x : (forall i j, (i < n)%nat -> (j < n)%nat -> ment M i j = ment A i j + (if Nat.eqb i j then mu else 0)) ->
  quad_form n M x = quad_form n A x + mu * rsum (fun i => x i * x i) n.
Proof.
  intros D. rewrite !form_rows, <- rsum_scale, <- rsum_add. apply rsum_ext. intros i Hi. rewrite (diag_row n A M mu x i D Hi). ring.
Qed.
Lemma rsum_le f g n : (forall i, (i < n)%nat -> f i <= g i) -> rsum f n <= rsum g n.
Proof. induction n; intros H; cbn; [lra|]. assert (rsum f n <= rsum g n) by (apply IHn; auto). assert (f n <= g n) by (apply H; lia). lra. Qed.

Lemma contraction n A lam mu (e e' s : nat -> R) : 0 < lam -> 0 < mu ->
  (forall x, lam * rsum (fun i => x i * x i) n <= quad_form n A x) ->
  (forall i, (i < n)%nat -> e i = e' i + s i) ->
  (forall i, (i < n)%nat -> rsum (fun j => ment A i j * e' j) n = mu * s i) ->
  (lam + mu) ^ 2 * rsum (fun i => e' i * e' i) n <= mu ^ 2 * rsum (fun i => e i * e i) n /\
  lam ^ 2 * rsum (fun i => e' i * e' i) n <= mu ^ 2 * rsum (fun i => s i * s i) n.
Proof.
  intros Pl Pm Low Hs Heq. pose proof (Low e') as L. rewrite form_rows in L.
  rewrite (rsum_ext (fun i => e' i * rsum (fun j => ment A i j * e' j) n) (fun i => mu * (e' i * s i))) in L by (intros i Hi; rewrite Heq by assumption; ring). rewrite rsum_scale in L.
  set (N := rsum (fun i => e' i * e' i) n) in *. set (X := rsum (fun i => e' i * s i) n) in *. set (S2 := rsum (fun i => s i * s i) n).
  assert (rsum (fun i => e i * e i) n = N + 2 * X + S2) as ->.
  { unfold N, X, S2. rewrite <- rsum_scale, <- !rsum_add. apply rsum_ext. intros i Hi. rewrite Hs by assumption. ring. }
  assert (forall t, 0 <= t * t * N - 2 * t * X + S2) as Sq.
  { intros t. unfold N, X, S2. replace (t * t * rsum (fun i => e' i * e' i) n - 2 * t * rsum (fun i => e' i * s i) n + rsum (fun i => s i * s i) n)
      with (rsum (fun i => (t * e' i - s i) * (t * e' i - s i)) n).
    - apply rsum_nonneg. intros i _. apply Rle_0_sqr.
    - transitivity (rsum (fun i => (t * t) * (e' i * e' i) + (- (2 * t)) * (e' i * s i) + s i * s i) n); [apply rsum_ext; intros; ring|].
      rewrite !rsum_add, !rsum_scale. ring. }
  assert (lam ^ 2 * N <= mu ^ 2 * S2) as B.
  { pose proof (Sq (lam / mu)) as Q. apply (Rmult_le_compat_l (mu * mu)) in Q; [|nra]. rewrite Rmult_0_r in Q.
    replace (mu * mu * (lam / mu * (lam / mu) * N - 2 * (lam / mu) * X + S2)) with (lam * lam * N - 2 * lam * (mu * X) + mu * mu * S2) in Q by (field; lra).
    assert (lam * (lam * N) <= lam * (mu * X)) by (apply Rmult_le_compat_l; lra). nra. }
  split; [|exact B].
  assert (0 <= N) by (apply rsum_nonneg; intros; apply Rle_0_sqr).
  assert (mu * (lam * N) <= mu * (mu * X)) by (apply Rmult_le_compat_l; lra). nra.
Qed.

Section Convex.
Variables (n : nat) (c : R) (b : rvec) (A : rmat) (xs : rvec) (lam tol : R).
Hypothesis Sy : symmetric n A.
Hypothesis Pl : 0 < lam.
Hypothesis Low : forall x, lam * rsum (fun i => x i * x i) n <= quad_form n A x.
Hypothesis Star : forall i, (i < n)%nat -> vat b i + rsum (fun j => ment A i j * vat xs j) n = 0.

Lemma pos_1em6 : 0 < r_1em6. Proof. unfold r_1em6, rlit. lra. Qed.

Lemma definite_shift (M : rmat) mu : 0 < mu -> (forall i j, (i < n)%nat -> (j < n)%nat -> ment M i j = ment A i j + (if Nat.eqb i j then mu else 0)) ->
  positive_definite n M /\ symmetric n M.
Proof.
  intros P D. split.
  - intros x (i & Hi & Nz). rewrite (diag_form n A M mu x D). pose proof (Low x).
    assert (0 < rsum (fun i => x i * x i) n) as N by (apply (rsum_pos_member _ n i Hi); [intros; apply Rle_0_sqr|apply Rsqr_pos_lt; assumption]).
    assert (0 < lam * rsum (fun i => x i * x i) n) by (apply Rmult_lt_0_compat; assumption).
    assert (0 < mu * rsum (fun i => x i * x i) n) by (apply Rmult_lt_0_compat; assumption). lra.
  - intros i j Hi Hj. rewrite !D by assumption. rewrite (Sy i j Hi Hj), (Nat.eqb_sym i j). reflexivity.
Qed.

Lemma convex_loop (y0 : nat -> rvec) : (forall k, length (y0 k) = n) -> forall iters (step point : rvec), length step = n -> length point = n ->
  exists p, newton_loop iters n y0 (quadratic n c b A) tol step point = Ok p /\ length p = n /\
    ((lam + r_1em6) ^ (2 * iters) * dist2 n p xs <= r_1em6 ^ (2 * iters) * dist2 n point xs \/
     lam ^ 2 * dist2 n p xs <= r_1em6 ^ 2 * rsum (fun i => (tol * Rmax 1 (Rabs (vat p i))) ^ 2) n).
Proof.
  intros Ly. set (f := quadratic n c b A). pose proof pos_1em6 as P6. induction iters; intros step point Ls Lp.
  - exists point. split; [reflexivity|]. split; [assumption|]. left. cbn. lra.
  - cbn [newton_loop].
    destruct (differences_top n c b A point r_1em7 Sy Lp) as ((grad & EG & Lg & G) & _); [unfold r_1em7, rlit; lra|]. fold f in EG. rewrite EG. cbn [bind].
    destruct (differences_top n c b A point r_1em5 Sy Lp) as (_ & (H & EH & SH & HH)); [unfold r_1em5, rlit; lra|]. fold f in EH. rewrite EH. cbn [bind].
    destruct (add_diag_ent n r_1em6 H SH) as (M & EM & SM & DM).
    assert (forall i j, (i < n)%nat -> (j < n)%nat -> ment M i j = ment A i j + (if Nat.eqb i j then r_1em6 else 0)) as D.
    { intros i j Hi Hj. rewrite DM, HH by assumption. reflexivity. }
    destruct (definite_shift M r_1em6 P6 D) as (PD & SyM).
    destruct (solve_ok n (y0 iters) M grad step SM Lg Ls (Ly iters)) as (ok & st & ES & Lst & _ & DE & Q). destruct (Q SyM) as (Q1 & Q2).
    assert (ok = true) as -> by (apply Q2; assumption). specialize (DE eq_refl). specialize (Q1 eq_refl). clear Q Q2.
    assert (mu_loop 13 n (y0 iters) H grad step r_1em6 = Ok (true, st)) as ->.
    { apply (mu_first 12 n (y0 iters) H M); [unfold r_1em6, rlit; lra|exact EM|exact ES]. }
    cbn [bind]. set (dir := map Ropp st). assert (length dir = n) as Ld by (unfold dir; rewrite map_length; assumption).
    assert (forall i, (i < n)%nat -> vat dir i = - vat st i) as Nd.
    { intros i Hi. unfold dir, vat. rewrite (nth_indep (map Ropp st) 0 (- 0)) by (rewrite map_length; lia). apply map_nth. }
    assert (lineSearch f point dir grad = 1) as ->.
    { apply search_first.
      unfold f at 1. rewrite (quadratic_shift n c b A point (shifted point 1 dir) (fun k => - vat st k) Sy).
      2:{ intros k Hk. rewrite shifted_at by lia. rewrite Nd by assumption. ring. }
      rewrite rdot_sum by congruence. rewrite Lg.
      rewrite (rsum_ext (fun i => vat grad i * vat dir i) (fun i => (-1) * (vat grad i * vat st i))) by (intros i Hi; rewrite Nd by assumption; ring).
      rewrite rsum_scale. set (X := rsum (fun i => vat grad i * vat st i) n) in *.
      rewrite (rsum_ext (fun i => - vat st i * (vat b i + rsum (fun j => ment A i j * vat point j) n)) (fun i => (-1) * (vat grad i * vat st i)))
        by (intros i Hi; rewrite G by assumption; ring). rewrite rsum_scale. fold X.
      assert (quad_form n A (fun k => - vat st k) <= X) as QF.
      {
        assert (quad_form n A (fun k => - vat st k) = quad_form n A (vat st)) as ->.
        { unfold quad_form. apply rsum_ext. intros i _. apply rsum_ext. intros. ring. }
        assert (quad_form n M (vat st) = X) as EX.
        { rewrite form_rows. unfold X. apply rsum_ext. intros i Hi. rewrite (Q1 i Hi). ring. }
        rewrite (diag_form n A M r_1em6 (vat st) D) in EX.
        assert (0 <= rsum (fun i => vat st i * vat st i) n) as N2 by (apply rsum_nonneg; intros; apply Rle_0_sqr).
        assert (0 <= r_1em6 * rsum (fun i => vat st i * vat st i) n) by (apply Rmult_le_pos; lra). lra. }
      assert (r_1em4 <= 1 / 2) as R4 by (unfold r_1em4, rlit; lra).
      assert (0 <= (1 / 2 - r_1em4) * X) as R5 by (apply Rmult_le_pos; lra). fold f. lra. }
    destruct (Req_EM_T 1 0); [exfalso; lra|].
    destruct (update_ok n 1 tol dir point Lp Ld) as (cv & -> & CV). cbn [bind].
    set (q := shifted point 1 dir) in *. assert (length q = n) as Lq by (unfold q; rewrite shifted_len; congruence).
    assert (forall i, (i < n)%nat -> vat q i = vat point i - vat st i) as Nq.
    { intros i Hi. unfold q. rewrite shifted_at by lia. rewrite Nd by assumption. ring. }
    destruct (contraction n A lam r_1em6 (fun i => vat point i - vat xs i) (fun i => vat q i - vat xs i) (vat st) Pl P6 Low) as (K1 & K2).
    { intros i Hi. rewrite Nq by assumption. ring. }
    { intros i Hi. pose proof (Q1 i Hi) as E1. rewrite (diag_row n A M r_1em6 (vat st) i D Hi), (G i Hi) in E1. pose proof (Star i Hi) as E2.
      rewrite (rsum_ext _ (fun j => ment A i j * vat point j + (-1) * (ment A i j * vat st j) + (-1) * (ment A i j * vat xs j))) by (intros j Hj; rewrite Nq by assumption; ring).
      rewrite !rsum_add, !rsum_scale. lra. }
    fold (dist2 n point xs) (dist2 n q xs) in K1, K2.
    destruct cv.
    + exists q. split; [reflexivity|]. split; [assumption|]. right. eapply Rle_trans; [exact K2|]. apply Rmult_le_compat_l; [apply pow2_ge_0|].
      apply rsum_le. intros i Hi. specialize (CV eq_refl i Hi). rewrite Nd in CV by assumption.
      replace (1 * - vat st i) with (- vat st i) in CV by ring. rewrite Rabs_Ropp in CV. pose proof (Rabs_pos (vat st i)).
      replace (vat st i * vat st i) with (Rabs (vat st i) * Rabs (vat st i)) by (rewrite <- Rabs_mult; apply Rabs_right; apply Rle_ge, Rle_0_sqr). cbn [pow]. nra.
    + destruct (IHiters dir q Ld Lq) as (p & -> & Lp' & [B|B]); exists p; (split; [reflexivity|]); (split; [assumption|]); [left|right; exact B].
      replace (2 * S iters)%nat with (2 + 2 * iters)%nat by lia. rewrite !pow_add.
      assert (0 <= (lam + r_1em6) ^ 2) by (apply pow2_ge_0). assert (0 <= r_1em6 ^ (2 * iters)) by (apply pow_le; lra).
      assert ((lam + r_1em6) ^ 2 * ((lam + r_1em6) ^ (2 * iters) * dist2 n p xs) <= (lam + r_1em6) ^ 2 * (r_1em6 ^ (2 * iters) * dist2 n q xs)) by (apply Rmult_le_compat_l; assumption).
      assert (r_1em6 ^ (2 * iters) * ((lam + r_1em6) ^ 2 * dist2 n q xs) <= r_1em6 ^ (2 * iters) * (r_1em6 ^ 2 * dist2 n point xs)) by (apply Rmult_le_compat_l; assumption).
      lra.
Qed.
End Convex.

Lemma convex_top : forall n c b A xs lam y0 point tol maxIter,
  msq n A -> symmetric n A -> 0 < lam -> (forall x, lam * rsum (fun i => x i * x i) n <= quad_form n A x) ->
  (forall i, (i < n)%nat -> vat b i + rsum (fun j => ment A i j * vat xs j) n = 0) ->
  (forall k, length (y0 k) = n) -> length point = n ->
  exists p, newtonsMethod n y0 (quadratic n c b A) point tol (Z.of_nat maxIter) = Ok p /\ length p = n /\
    ((lam + r_1em6) ^ (2 * maxIter) * dist2 n p xs <= r_1em6 ^ (2 * maxIter) * dist2 n point xs \/
     lam ^ 2 * dist2 n p xs <= r_1em6 ^ 2 * rsum (fun i => (tol * Rmax 1 (Rabs (vat p i))) ^ 2) n).
Proof.
  intros n c b A xs lam y0 point tol maxIter SQ Sy Pl Low Star Ly Lp. unfold newtonsMethod. rewrite Nat2Z.id.
  apply (convex_loop n c b A xs lam tol Sy Pl Low Star y0 Ly); [apply repeat_length|assumption].
Qed.

Lemma factor_top : forall n H, msq n H -> symmetric n H ->
  exists st, cholesky n H = Ok st /\ (st <> None <-> positive_definite n H) /\
  (forall L, st = Some L -> msq n L /\ lower_positive n L /\
     forall i j, (i < n)%nat -> (j < n)%nat -> rsum (fun k => ment L i k * ment L j k) n = ment H i j).
Proof.
  intros n H SQ Sy. destruct (cholesky_top n H SQ) as (st & E & G & P). exists st. split; [exact E|]. split; [exact (P Sy)|].
  intros L HL. destruct (G L HL) as (A & B & C). split; [exact A|]. split; [exact B|]. intros i j Hi Hj.
  destruct (Nat.le_ge_cases j i) as [LE|LE]; [apply C; assumption|]. rewrite (Sy i j Hi Hj), <- (C j i Hj LE). apply rsum_ext. intros. ring.
Qed.
