(** Derivatives and cross products of monomial patches. *)
From Coq Require Import List ZArith QArith Qcanon Bool Lia Lqa Field.
From Verif Require Import Base BaseFacts LoopFacts ModelVec ModelAabb ModelNurbs ModelSurface ModelBinom ModelNumeric ModelMonomial
  SpecNurbs SpecSurface SpecNumeric SpecMonomial ProofBspline ProofCurve ProofSurface ProofSurfaceTop ProofIntegrate ProofMinimize ProofMatrix ProofBpmat ProofMonomial ProofMonomialTop.
Import ListNotations.
Open Scope Qc_scope.

(** ** calculus of has_derivative *)
Definition bnd (r B : Qc) : Prop := - B <= r /\ r <= B.
Lemma bnd_add r s B C : bnd r B -> bnd s C -> bnd (r + s) (B + C).
Proof. intros (A1 & A2) (B1 & B2). split; qc_lra. Qed.
Lemma bnd_mul r s B C : bnd r B -> bnd s C -> bnd (r * s) (B * C).
Proof.
  intros (A1 & A2) (B1 & B2).
  assert (0 <= (B - r) * (C + s)) by (apply Qcmul_nonneg; qc_lra). assert (0 <= (B + r) * (C - s)) by (apply Qcmul_nonneg; qc_lra).
  assert (0 <= (B - r) * (C - s)) by (apply Qcmul_nonneg; qc_lra). assert (0 <= (B + r) * (C + s)) by (apply Qcmul_nonneg; qc_lra).
  split; qc_nra.
Qed.
Lemma bnd_abs r : bnd r (Qcabs r).
Proof. destruct (Qcabs_cases r) as [(H & ->)|(H & ->)]; split; qc_lra. Qed.

Lemma has_derivative_ext f g x d : (forall t, f t = g t) -> has_derivative f x d -> has_derivative g x d.
Proof. intros H (K & B). exists K. intros h. rewrite <- !H. apply B. Qed.
Lemma has_derivative_add f g x d e : has_derivative f x d -> has_derivative g x e -> has_derivative (fun t => f t + g t) x (d + e).
Proof.
  intros (K & B) (L & C). exists (K + L). intros h H1 H2. pose proof (bnd_add _ _ _ _ (B h H1 H2) (C h H1 H2)) as (P & Q).
  replace (f (x + h) + g (x + h) - (f x + g x) - h * (d + e)) with (f (x + h) - f x - h * d + (g (x + h) - g x - h * e)) by ring.
  replace ((K + L) * (h * h)) with (K * (h * h) + L * (h * h)) by ring. split; assumption.
Qed.
Lemma has_derivative_scale c f x d : has_derivative f x d -> has_derivative (fun t => c * f t) x (c * d).
Proof.
  intros (K & B). exists (Qcabs c * K). intros h H1 H2. pose proof (bnd_mul _ _ _ _ (bnd_abs c) (B h H1 H2)) as (P & Q).
  replace (c * f (x + h) - c * f x - h * (c * d)) with (c * (f (x + h) - f x - h * d)) by ring.
  replace (Qcabs c * K * (h * h)) with (Qcabs c * (K * (h * h))) by ring. split; assumption.
Qed.
Lemma has_derivative_zero x : has_derivative (fun _ => 0) x 0.
Proof. exists 0. intros h _ _. replace (0 - 0 - h * 0) with 0 by ring. replace (0 * (h * h)) with 0 by ring. split; qc_lra. Qed.
Lemma has_derivative_sum f d x : forall n, (forall i, (i < n)%nat -> has_derivative (f i) x (d i)) -> has_derivative (fun t => qsum (fun i => f i t) n) x (qsum d n).
Proof.
  induction n; intros H; cbn [qsum]; [apply has_derivative_zero|]. apply has_derivative_add; [apply IHn; intros; apply H; lia|apply H; lia].
Qed.
Lemma has_derivative_pow x : forall n, has_derivative (fun t => qpow t n) x (Qc_of_nat n * qpow x (n - 1)).
Proof.
  induction n.
  - cbn [qpow]. exists 0. intros h _ _. replace (Qc_of_nat 0) with 0 by reflexivity. replace (1 - 1 - h * (0 * qpow x (0 - 1))) with 0 by ring. replace (0 * (h * h)) with 0 by ring. split; qc_lra.
  - destruct IHn as (K & B). set (d := Qc_of_nat n * qpow x (n - 1)) in *.
    assert (Qc_of_nat (S n) * qpow x (S n - 1) = qpow x n + x * d) as ->.
    { unfold d. replace (S n - 1)%nat with n by lia. replace (Qc_of_nat (S n)) with (Qc_of_nat n + 1).
      2:{ unfold Qc_of_nat. rewrite Nat2Z.inj_succ, <- Z.add_1_r, Qc_of_Z_add. reflexivity. }
      destruct n; [replace (Qc_of_nat 0) with 0 by reflexivity; ring|]. replace (S n - 1)%nat with n by lia. cbn [qpow]. ring. }
    exists ((Qcabs x + 1) * K + Qcabs d). intros h H1 H2.
    pose proof (bnd_mul (x + h) _ (Qcabs x + 1) _ (bnd_add _ _ _ _ (bnd_abs x) (conj H1 H2)) (B h H1 H2)) as P.
    pose proof (bnd_mul d (h * h) (Qcabs d) (h * h) (bnd_abs d)) as Q.
    assert (bnd (h * h) (h * h)) as HH by (assert (0 <= h * h) by qc_nra; split; qc_lra).
    pose proof (bnd_add _ _ _ _ P (Q HH)) as (R1 & R2). cbn [qpow].
    replace ((x + h) * qpow (x + h) n - x * qpow x n - h * (qpow x n + x * d)) with ((x + h) * (qpow (x + h) n - qpow x n - h * d) + d * (h * h)) by ring.
    replace (((Qcabs x + 1) * K + Qcabs d) * (h * h)) with ((Qcabs x + 1) * (K * (h * h)) + Qcabs d * (h * h)) by ring. split; assumption.
Qed.

(** a polynomial and its shifted, scaled coefficients *)
Lemma has_derivative_poly (c : nat -> Qc) n x :
  has_derivative (fun t => qsum (fun i => c i * qpow t i) n) x (qsum (fun i => Qc_of_nat (S i) * c (S i) * qpow x i) (n - 1)).
Proof.
  destruct n; [apply has_derivative_zero|]. replace (S n - 1)%nat with n by lia.
  replace (qsum (fun i => Qc_of_nat (S i) * c (S i) * qpow x i) n) with (qsum (fun i => c i * (Qc_of_nat i * qpow x (i - 1))) (S n)).
  - apply has_derivative_sum. intros i Hi. apply has_derivative_scale. apply has_derivative_pow.
  - rewrite qsum_shift. replace (Qc_of_nat 0) with 0 by reflexivity.
    rewrite (qsum_ext (fun i => c (S i) * (Qc_of_nat (S i) * qpow x (S i - 1))) (fun i => Qc_of_nat (S i) * c (S i) * qpow x i)); [ring|].
    intros i _. replace (S i - 1)%nat with i by lia. ring.
Qed.

(** ** compute_partial_derivative *)
Lemma partial_u_rep T n m F : (0 < n)%nat -> trep v3d T n m F -> exists D, partial_derivative T true [] = Ok D /\
  trep v3d D (n - 1) m (fun i j => v3scale (F (S i) j) (Qc_of_nat (S i))).
Proof.
  intros Hn HT. pose proof HT as (L & _). unfold partial_derivative. destruct (trep_row v3d T n m F 0 HT Hn) as (r0 & -> & _ & Lr). cbn [bind]. rewrite L, Lr, resize_nil.
  set (G := fun i j => v3scale (F (S i) j) (Qc_of_nat (S i))).
  destruct (for_up_inv (fun i t => trep v3d t (n - 1) m (fun a b => if Nat.ltb a (i - 1) then G a b else v3zero))
    (fun i t => for_up m 0 (fun j t => pd_cell_u T i j t) t) (n - 1) 1 (repeat (repeat v3zero m) (n - 1))) as (D & E & R).
  - eapply trep_ext; [|apply trep_repeat]. intros; cbv beta. destruct (Nat.ltb_spec i (1 - 1)); [lia|reflexivity].
  - intros i t Hi Hi' Ht.
    destruct (for_up_inv (fun j t => trep v3d t (n - 1) m (fun a b => if (Nat.ltb a (i - 1) || (Nat.eqb a (i - 1) && Nat.ltb b j))%bool then G a b else v3zero))
      (fun j t => pd_cell_u T i j t) m 0 t) as (t' & E & R).
    + revert Ht. apply trep_ext. upds.
    + intros j t1 _ Hj Ht1. unfold pd_cell_u. rewrite (trep_get v3d _ _ _ _ _ _ HT) by lia. cbn [bind].
      destruct (trep_set v3d _ _ _ _ (i - 1) j (G (i - 1)%nat j) Ht1) as (t2 & E & R); [lia|lia|]. exists t2. split.
      * rewrite <- E. unfold G. replace (S (i - 1)) with i by lia. reflexivity.
      * revert R. apply trep_ext. unfold updf. upds.
    + exists t'. split; [exact E|]. revert R. apply trep_ext. upds.
  - exists D. split; [exact E|]. revert R. apply trep_ext. upds.
Qed.
Lemma partial_v_rep T n m F : (0 < n)%nat -> (0 < m)%nat -> trep v3d T n m F -> exists D, partial_derivative T false [] = Ok D /\
  trep v3d D n (m - 1) (fun i j => v3scale (F i (S j)) (Qc_of_nat (S j))).
Proof.
  intros Hn Hm HT. pose proof HT as (L & _). unfold partial_derivative. destruct (trep_row v3d T n m F 0 HT Hn) as (r0 & -> & _ & Lr). cbn [bind]. rewrite L, Lr, resize_nil.
  set (G := fun i j => v3scale (F i (S j)) (Qc_of_nat (S j))).
  destruct (for_up_inv (fun i t => trep v3d t n (m - 1) (fun a b => if Nat.ltb a i then G a b else v3zero))
    (fun i t => for_up (m - 1) 1 (fun j t => pd_cell_v T i j t) t) n 0 (repeat (repeat v3zero (m - 1)) n)) as (D & E & R).
  - eapply trep_ext; [|apply trep_repeat]. intros; cbv beta. destruct (Nat.ltb_spec i 0); [lia|reflexivity].
  - intros i t Hi Hi' Ht.
    destruct (for_up_inv (fun j t => trep v3d t n (m - 1) (fun a b => if (Nat.ltb a i || (Nat.eqb a i && Nat.ltb b (j - 1)))%bool then G a b else v3zero))
      (fun j t => pd_cell_v T i j t) (m - 1) 1 t) as (t' & E & R).
    + revert Ht. apply trep_ext. upds.
    + intros j t1 Hj Hj' Ht1. unfold pd_cell_v. rewrite (trep_get v3d _ _ _ _ _ _ HT) by lia. cbn [bind].
      destruct (trep_set v3d _ _ _ _ i (j - 1) (G i (j - 1)%nat) Ht1) as (t2 & E & R); [lia|lia|]. exists t2. split.
      * rewrite <- E. unfold G. replace (S (j - 1)) with j by lia. reflexivity.
      * revert R. apply trep_ext. unfold updf. upds.
    + exists t'. split; [exact E|]. revert R. apply trep_ext. upds.
  - exists D. split; [|revert R; apply trep_ext; upds]. destruct m; [lia|]. exact E.
Qed.

Lemma poly2_comp T n m u v c : (c < 3)%nat -> comp3 c (poly2 T n m u v) = qsum (fun i => qsum (fun j => comp3 c (ent T i j) * qpow u i * qpow v j) m) n.
Proof. intros H. destruct c as [|[|[|c]]]; try lia; reflexivity. Qed.
Lemma v3_comps (a b : vec3) : (forall c, (c < 3)%nat -> comp3 c a = comp3 c b) -> a = b.
Proof. intros H. rewrite <- (comps3 a), <- (comps3 b). rewrite !H by lia. reflexivity. Qed.
Lemma derivative3_comps f x d : (forall c, (c < 3)%nat -> has_derivative (fun t => comp3 c (f t)) x (comp3 c d)) -> has_derivative3 f x d.
Proof. intros H. split; [apply (H 0%nat); lia|]. split; [apply (H 1%nat)|apply (H 2%nat)]; lia. Qed.
Lemma comp3_scale c v k : comp3 c (v3scale v k) = comp3 c v * k.
Proof. destruct c as [|[|c]]; reflexivity. Qed.

Lemma partial_u_top : forall T n m, (0 < n)%nat -> shape T n m ->
  exists D, partial_derivative T true [] = Ok D /\ shape D (n - 1) m /\
    forall u v, has_derivative3 (fun t => poly2 T n m t v) u (poly2 D (n - 1) m u v).
Proof.
  intros T n m Hn Sh. assert (trep v3d T n m (ent T)) as HT by (apply trep_ent; split; [exact Sh|reflexivity]).
  destruct (partial_u_rep T n m _ Hn HT) as (D & E & R). apply trep_ent in R. destruct R as (SD & N). exists D. split; [exact E|]. split; [exact SD|].
  intros u v. apply derivative3_comps. intros c Hc. rewrite poly2_comp by assumption.
  apply (has_derivative_ext (fun t => qsum (fun i => qsum (fun j => comp3 c (ent T i j) * qpow v j) m * qpow t i) n)).
  { intros t. rewrite poly2_comp by assumption. apply qsum_ext. intros i Hi. transitivity (qpow t i * qsum (fun j => comp3 c (ent T i j) * qpow v j) m); [ring|]. rewrite <- qsum_scale. apply qsum_ext. intros; ring. }
  replace (qsum (fun i => qsum (fun j => comp3 c (ent D i j) * qpow u i * qpow v j) m) (n - 1))
    with (qsum (fun i => Qc_of_nat (S i) * qsum (fun j => comp3 c (ent T (S i) j) * qpow v j) m * qpow u i) (n - 1)).
  - apply (has_derivative_poly (fun i => qsum (fun j => comp3 c (ent T i j) * qpow v j) m)).
  - apply qsum_ext. intros i Hi. transitivity (Qc_of_nat (S i) * qpow u i * qsum (fun j => comp3 c (ent T (S i) j) * qpow v j) m); [ring|]. rewrite <- qsum_scale. apply qsum_ext. intros j Hj. rewrite N, comp3_scale by assumption. ring.
Qed.
Lemma partial_v_top : forall T n m, (0 < n)%nat -> (0 < m)%nat -> shape T n m ->
  exists D, partial_derivative T false [] = Ok D /\ shape D n (m - 1) /\
    forall u v, has_derivative3 (fun t => poly2 T n m u t) v (poly2 D n (m - 1) u v).
Proof.
  intros T n m Hn Hm Sh. assert (trep v3d T n m (ent T)) as HT by (apply trep_ent; split; [exact Sh|reflexivity]).
  destruct (partial_v_rep T n m _ Hn Hm HT) as (D & E & R). apply trep_ent in R. destruct R as (SD & N). exists D. split; [exact E|]. split; [exact SD|].
  intros u v. apply derivative3_comps. intros c Hc. rewrite poly2_comp by assumption.
  apply (has_derivative_ext (fun t => qsum (fun j => qsum (fun i => comp3 c (ent T i j) * qpow u i) n * qpow t j) m)).
  { intros t. rewrite poly2_comp by assumption. rewrite qsum_swap. apply qsum_ext. intros j Hj. transitivity (qpow t j * qsum (fun i => comp3 c (ent T i j) * qpow u i) n); [ring|]. rewrite <- qsum_scale. apply qsum_ext. intros; ring. }
  rewrite qsum_swap.
  replace (qsum (fun j => qsum (fun i => comp3 c (ent D i j) * qpow u i * qpow v j) n) (m - 1))
    with (qsum (fun j => Qc_of_nat (S j) * qsum (fun i => comp3 c (ent T i (S j)) * qpow u i) n * qpow v j) (m - 1)).
  - apply (has_derivative_poly (fun j => qsum (fun i => comp3 c (ent T i j) * qpow u i) n)).
  - apply qsum_ext. intros j Hj. transitivity (Qc_of_nat (S j) * qpow v j * qsum (fun i => comp3 c (ent T i (S j)) * qpow u i) n); [ring|]. rewrite <- qsum_scale. apply qsum_ext. intros i Hi. rewrite N, comp3_scale by assumption. ring.
Qed.

(** ** cross *)
Lemma for_up_sum {S} (P : S -> Prop) (ev : nat -> S -> Qc) (g : nat -> nat -> Qc) (body : nat -> S -> res S) n s :
  P s -> (forall i s, (i < n)%nat -> P s -> exists s', body i s = Ok s' /\ P s' /\ forall c, (c < 3)%nat -> ev c s' = ev c s + g c i) ->
  exists s', for_up n 0 body s = Ok s' /\ P s' /\ forall c, (c < 3)%nat -> ev c s' = ev c s + qsum (g c) n.
Proof.
  intros H0 Hb.
  destruct (for_up_inv (fun i s' => P s' /\ forall c, (c < 3)%nat -> ev c s' = ev c s + qsum (g c) i) body n 0 s) as (s' & E & R).
  - split; [exact H0|]. intros c _. cbn. ring.
  - intros i s1 _ Hi (H1 & H2). destruct (Hb i s1 Hi H1) as (s2 & E & H3 & H4). exists s2. split; [exact E|]. split; [exact H3|]. intros c Hc. rewrite H4, H2 by assumption. cbn [qsum]. ring.
  - exists s'. split; [exact E|exact R].
Qed.

Lemma qsum_upd (f : nat -> Qc) k x n : (k < n)%nat -> qsum (fun i => if Nat.eqb i k then x else f i) n = qsum f n + (x - f k).
Proof.
  intros H. induction n; [lia|]. cbn [qsum]. destruct (Nat.eqb_spec n k) as [->|].
  - rewrite (qsum_ext _ f); [ring|]. intros i Hi. destruct (Nat.eqb_spec i k); [lia|reflexivity].
  - rewrite IHn by lia. ring.
Qed.

Definition evc (u v : Qc) (n m : nat) (c : nat) (T : tensor3) : Qc := qsum (fun i => qsum (fun j => comp3 c (ent T i j) * qpow u i * qpow v j) m) n.
Lemma evc_set u v n m T i j x T' c : trep v3d T n m (ent T) -> tset T i j x = Ok T' -> trep v3d T' n m (updf (ent T) i j x) -> (i < n)%nat -> (j < m)%nat ->
  evc u v n m c T' = evc u v n m c T + (comp3 c x - comp3 c (ent T i j)) * qpow u i * qpow v j.
Proof.
  intros HT E R Hi Hj. apply trep_ent in R. destruct R as (_ & N). unfold evc.
  transitivity (qsum (fun a => if Nat.eqb a i then qsum (fun b => comp3 c (ent T i b) * qpow u i * qpow v b) m + (comp3 c x - comp3 c (ent T i j)) * qpow u i * qpow v j
    else qsum (fun b => comp3 c (ent T a b) * qpow u a * qpow v b) m) n).
  - apply qsum_ext. intros a Ha. destruct (Nat.eqb_spec a i) as [->|NE].
    + transitivity (qsum (fun b => if Nat.eqb b j then comp3 c x * qpow u i * qpow v j else comp3 c (ent T i b) * qpow u i * qpow v b) m).
      * apply qsum_ext. intros b Hb. rewrite N by assumption. unfold updf. rewrite Nat.eqb_refl. cbn [andb]. destruct (Nat.eqb_spec b j) as [->|]; reflexivity.
      * rewrite qsum_upd by assumption. ring.
    + apply qsum_ext. intros b Hb. rewrite N by assumption. unfold updf. destruct (Nat.eqb_spec a i); [contradiction|]. reflexivity.
  - rewrite qsum_upd by assumption. ring.
Qed.

Definition cross_comp (c : nat) (x y : vec3) : Qc := comp3 c (v3cross x y).
Lemma cross_top : forall A B n1 m1 n2 m2, (0 < n1)%nat -> (0 < m1)%nat -> (0 < n2)%nat -> (0 < m2)%nat -> shape A n1 m1 -> shape B n2 m2 ->
  exists C, cross_tensor A B [] = Ok C /\ shape C (n1 + n2 - 1) (m1 + m2 - 1) /\
    forall u v, poly2 C (n1 + n2 - 1) (m1 + m2 - 1) u v = v3cross (poly2 A n1 m1 u v) (poly2 B n2 m2 u v).
Proof.
  intros A B n1 m1 n2 m2 P1 P2 P3 P4 SA SB.
  assert (trep v3d A n1 m1 (ent A)) as HA by (apply trep_ent; split; [exact SA|reflexivity]).
  assert (trep v3d B n2 m2 (ent B)) as HB by (apply trep_ent; split; [exact SB|reflexivity]).
  set (n := (n1 + n2 - 1)%nat). set (m := (m1 + m2 - 1)%nat).
  assert (forall u v, exists C, cross_tensor A B [] = Ok C /\ shape C n m /\ forall c, (c < 3)%nat -> evc u v n m c C =
    qsum (fun i1 => qsum (fun j1 => qsum (fun i2 => qsum (fun j2 => cross_comp c (ent A i1 j1) (ent B i2 j2) * qpow u (i1 + i2) * qpow v (j1 + j2)) m2) n2) m1) n1) as G.
  { intros u v. unfold cross_tensor.
    destruct (trep_row v3d A _ _ _ 0 HA P1) as (ra & -> & _ & La). destruct (trep_row v3d B _ _ _ 0 HB P3) as (rb & -> & _ & Lb). cbn [bind].
    destruct HA as (LA & HA'). destruct HB as (LB & HB'). rewrite LA, LB, La, Lb. pose proof (conj LA HA' : trep v3d A n1 m1 (ent A)) as HA. pose proof (conj LB HB' : trep v3d B n2 m2 (ent B)) as HB.
    replace (m1 + m2)%nat with (S m) by lia. cbn iota. fold n. rewrite resize_nil.
    assert (shape (repeat (repeat v3zero m) n) n m) as S0 by (pose proof (trep_repeat v3d n m v3zero) as (X & Y & _); split; assumption).
    destruct (for_up_sum (fun t => shape t n m) (evc u v n m)
      (fun c i1 => qsum (fun j1 => qsum (fun i2 => qsum (fun j2 => cross_comp c (ent A i1 j1) (ent B i2 j2) * qpow u (i1 + i2) * qpow v (j1 + j2)) m2) n2) m1)
      (fun i1 t => for_up m1 0 (fun j1 t => for_up n2 0 (fun i2 t => for_up m2 0 (fun j2 t => cross_cell A B i1 j1 i2 j2 t) t) t) t) n1 (repeat (repeat v3zero m) n) S0) as (C & E & SC & EC).
    2:{ exists C. split; [exact E|]. split; [exact SC|]. intros c Hc. rewrite EC by assumption.
        assert (evc u v n m c (repeat (repeat v3zero m) n) = 0) as ->; [|ring]. unfold evc. apply qsum_zero. intros i Hi. apply qsum_zero. intros j Hj.
        destruct (trep_repeat v3d n m v3zero) as (_ & _ & N). unfold ent. unfold v3d in N. rewrite N by assumption. destruct c as [|[|c]]; cbn; ring. }
    intros i1 t1 H1 St1. apply for_up_sum; [exact St1|]. intros j1 t2 H2 St2. apply for_up_sum; [exact St2|]. intros i2 t3 H3 St3. apply for_up_sum; [exact St3|].
    intros j2 t H4 St. unfold cross_cell. rewrite (trep_get v3d _ _ _ _ _ _ HA), (trep_get v3d _ _ _ _ _ _ HB) by assumption. cbn [bind].
    assert (trep v3d t n m (ent t)) as Ht by (apply trep_ent; split; [exact St|reflexivity]).
    rewrite (trep_get v3d _ _ _ _ _ _ Ht) by lia. cbn [bind].
    set (x := V3 _ _ _). destruct (trep_set v3d t n m (ent t) (i1 + i2) (j1 + j2) x Ht) as (t' & E & R); [lia|lia|]. exists t'. split; [exact E|].
    split; [apply trep_ent in R; tauto|]. intros c Hc. rewrite (evc_set u v n m t _ _ x t' c Ht E R) by lia. f_equal. f_equal. f_equal.
    unfold x, cross_comp, v3cross. destruct c as [|[|[|c]]]; try lia; cbn [comp3 vx vy vz]; ring. }
  destruct (G 0 0) as (C & E & SC & _). exists C. split; [exact E|]. split; [exact SC|]. intros u v. destruct (G u v) as (C' & E' & _ & EV). rewrite E in E'. injection E' as <-.
  assert (forall f g : vec3 -> Qc, qsum (fun i1 => qsum (fun j1 => qsum (fun i2 => qsum (fun j2 => (f (ent A i1 j1) * g (ent B i2 j2)) * qpow u (i1 + i2) * qpow v (j1 + j2)) m2) n2) m1) n1
    = qsum (fun i => qsum (fun j => f (ent A i j) * qpow u i * qpow v j) m1) n1 * qsum (fun i => qsum (fun j => g (ent B i j) * qpow u i * qpow v j) m2) n2) as PR.
  { intros f g. rewrite qsum_mul. apply qsum_ext. intros i1 _. 
    transitivity (qsum (fun j1 => qsum (fun i2 => qsum (fun j2 => (f (ent A i1 j1) * qpow u i1 * qpow v j1) * (g (ent B i2 j2) * qpow u i2 * qpow v j2)) m2) n2) m1).
    - apply qsum_ext. intros j1 _. apply qsum_ext. intros i2 _. apply qsum_ext. intros j2 _. rewrite !qpow_add. ring.
    - rewrite qsum_swap. apply qsum_ext. intros i2 _. symmetry. apply qsum_mul. }
  assert (forall f g h k : vec3 -> Qc, qsum (fun i1 => qsum (fun j1 => qsum (fun i2 => qsum (fun j2 => (f (ent A i1 j1) * g (ent B i2 j2) - h (ent A i1 j1) * k (ent B i2 j2)) * qpow u (i1 + i2) * qpow v (j1 + j2)) m2) n2) m1) n1
    = qsum (fun i => qsum (fun j => f (ent A i j) * qpow u i * qpow v j) m1) n1 * qsum (fun i => qsum (fun j => g (ent B i j) * qpow u i * qpow v j) m2) n2
    - qsum (fun i => qsum (fun j => h (ent A i j) * qpow u i * qpow v j) m1) n1 * qsum (fun i => qsum (fun j => k (ent B i j) * qpow u i * qpow v j) m2) n2) as PD.
  { intros f g h k. rewrite <- !PR. 
    transitivity (qsum (fun i1 => qsum (fun j1 => qsum (fun i2 => qsum (fun j2 => (f (ent A i1 j1) * g (ent B i2 j2)) * qpow u (i1 + i2) * qpow v (j1 + j2) + (- (1)) * ((h (ent A i1 j1) * k (ent B i2 j2)) * qpow u (i1 + i2) * qpow v (j1 + j2))) m2) n2) m1) n1).
    - do 4 (apply qsum_ext; intros ? _). ring.
    - rewrite (qsum_ext _ (fun i1 => qsum (fun j1 => qsum (fun i2 => qsum (fun j2 => (f (ent A i1 j1) * g (ent B i2 j2)) * qpow u (i1 + i2) * qpow v (j1 + j2)) m2) n2) m1
        + (- (1)) * qsum (fun j1 => qsum (fun i2 => qsum (fun j2 => (h (ent A i1 j1) * k (ent B i2 j2)) * qpow u (i1 + i2) * qpow v (j1 + j2)) m2) n2) m1)).
      + rewrite qsum_add, qsum_scale. ring.
      + intros i1 _. rewrite <- qsum_scale, <- qsum_add. apply qsum_ext. intros j1 _. rewrite <- qsum_scale, <- qsum_add. apply qsum_ext. intros i2 _. rewrite <- qsum_scale, <- qsum_add. reflexivity. }
  apply v3_comps. intros c Hc. rewrite poly2_comp by assumption. fold (evc u v n m c C). rewrite EV by assumption. unfold cross_comp, v3cross.
  destruct c as [|[|[|c]]]; try lia; cbn [comp3 vx vy vz]; rewrite PD; reflexivity.
Qed.

(** ** computeNormal *)
Lemma mo_set_ok co n m : (n <= 30)%nat -> (m <= 30)%nat -> shape co (S n) (S m) ->
  exists o, mo_set co = Ok o /\ mo_n o = S n /\ mo_m o = S m /\ mo_coeffs o = co.
Proof.
  intros Hn Hm Sh. assert (trep v3d co (S n) (S m) (ent co)) as HT by (apply trep_ent; split; [exact Sh|reflexivity]). pose proof Sh as (L & _).
  unfold mo_set. destruct (trep_row v3d co _ _ _ 0 HT ltac:(lia)) as (r & -> & _ & Lr). cbn [bind]. rewrite L, Lr.
  replace (Z.of_nat (S n) - 1)%Z with (Z.of_nat n) by lia. replace (Z.of_nat (S m) - 1)%Z with (Z.of_nat m) by lia.
  destruct (bpmat_inverse n Hn) as (mu & mui & Bu & -> & _ & Eu & _). destruct (bpmat_inverse m Hm) as (mv & mvi & Bv & -> & _ & Ev & _). cbn [bind]. rewrite Eu, Ev. cbn [bind].
  eexists. split; [reflexivity|]. auto.
Qed.

Lemma normal_top : forall o n m, (2 <= n <= 16)%nat -> (2 <= m <= 16)%nat -> shape (mo_coeffs o) n m ->
  exists o' du dv, mo_normal o = Ok o' /\ mo_n o' = (2 * n - 2)%nat /\ mo_m o' = (2 * m - 2)%nat /\ shape (mo_coeffs o') (2 * n - 2) (2 * m - 2) /\
    (forall u v, has_derivative3 (fun t => poly2 (mo_coeffs o) n m t v) u (du u v)) /\
    (forall u v, has_derivative3 (fun t => poly2 (mo_coeffs o) n m u t) v (dv u v)) /\
    forall u v, poly2 (mo_coeffs o') (2 * n - 2) (2 * m - 2) u v = v3cross (du u v) (dv u v).
Proof.
  intros o n m Hn Hm Sh. unfold mo_normal.
  destruct (partial_u_top (mo_coeffs o) n m ltac:(lia) Sh) as (cu & -> & Su & Hu). destruct (partial_v_top (mo_coeffs o) n m ltac:(lia) ltac:(lia) Sh) as (cv & -> & Sv & Hv). cbn [bind].
  destruct (cross_top cu cv (n - 1) m n (m - 1)) as (co & -> & Sc & Hc); try lia; try assumption. cbn [bind].
  replace (n - 1 + n - 1)%nat with (2 * n - 2)%nat in * by lia. replace (m + (m - 1) - 1)%nat with (2 * m - 2)%nat in * by lia.
  replace (2 * n - 2)%nat with (S (2 * n - 3)) in Sc |- * by lia. replace (2 * m - 2)%nat with (S (2 * m - 3)) in Sc |- * by lia.
  destruct (mo_set_ok co (2 * n - 3) (2 * m - 3)) as (o' & -> & E1 & E2 & E3); [lia|lia|assumption|].
  exists o', (fun u v => poly2 cu (n - 1) m u v), (fun u v => poly2 cv n (m - 1) u v). split; [reflexivity|]. split; [exact E1|]. split; [exact E2|]. rewrite E3. split; [exact Sc|].
  split; [exact Hu|]. split; [exact Hv|]. intros u v. rewrite <- Hc. replace (S (2 * n - 3)) with (2 * n - 2)%nat by lia. replace (S (2 * m - 3)) with (2 * m - 2)%nat by lia. reflexivity.
Qed.

Lemma partial_set_top : forall o n m, (2 <= n <= 31)%nat -> (2 <= m <= 31)%nat -> shape (mo_coeffs o) n m ->
  (exists o', mo_partial o true = Ok o' /\ mo_n o' = (n - 1)%nat /\ mo_m o' = m /\ shape (mo_coeffs o') (n - 1) m /\
    forall u v, has_derivative3 (fun t => poly2 (mo_coeffs o) n m t v) u (poly2 (mo_coeffs o') (n - 1) m u v)) /\
  (exists o', mo_partial o false = Ok o' /\ mo_n o' = n /\ mo_m o' = (m - 1)%nat /\ shape (mo_coeffs o') n (m - 1) /\
    forall u v, has_derivative3 (fun t => poly2 (mo_coeffs o) n m u t) v (poly2 (mo_coeffs o') n (m - 1) u v)).
Proof.
  intros o n m Hn Hm Sh. unfold mo_partial. split.
  - destruct (partial_u_top (mo_coeffs o) n m ltac:(lia) Sh) as (cu & -> & Su & Hu). cbn [bind].
    destruct (mo_set_ok cu (n - 2) (m - 1)) as (o' & E & E1 & E2 & E3); [lia|lia|replace (S (n - 2)) with (n - 1)%nat by lia; replace (S (m - 1)) with m by lia; assumption|].
    exists o'. split; [exact E|]. split; [lia|]. split; [lia|]. rewrite E3. auto.
  - destruct (partial_v_top (mo_coeffs o) n m ltac:(lia) ltac:(lia) Sh) as (cv & -> & Sv & Hv). cbn [bind].
    destruct (mo_set_ok cv (n - 1) (m - 2)) as (o' & E & E1 & E2 & E3); [lia|lia|replace (S (n - 1)) with n by lia; replace (S (m - 2)) with (m - 1)%nat by lia; assumption|].
    exists o'. split; [exact E|]. split; [lia|]. split; [lia|]. rewrite E3. auto.
Qed.

(** ** what goes wrong *)
Lemma partial_const_top : forall o m, shape (mo_coeffs o) 1 m -> mo_partial o true = UB /\ mo_normal o = (if Nat.eqb m 0 then Throw ELength else UB).
Proof.
  intros o m Sh. unfold mo_partial, mo_normal. destruct (partial_u_top (mo_coeffs o) 1 m ltac:(lia) Sh) as (cu & E & Su & _). rewrite E. cbn [bind].
  destruct cu as [|r cu]; [|destruct Su as (L & _); cbn in L; lia]. split; [reflexivity|].
  destruct (Nat.eqb_spec m 0) as [->|].
  - unfold partial_derivative. assert (trep v3d (mo_coeffs o) 1 0 (ent (mo_coeffs o))) as HT by (apply trep_ent; split; [exact Sh|reflexivity]).
    destruct (trep_row v3d _ _ _ _ 0 HT ltac:(lia)) as (r & -> & _ & Lr). cbn [bind]. rewrite Lr. reflexivity.
  - destruct (partial_v_top (mo_coeffs o) 1 m ltac:(lia) ltac:(lia) Sh) as (cv & -> & _). reflexivity.
Qed.

Lemma assign_top : forall o n m, mo_n o = S n -> shape (mo_coeffs o) (S n) m -> forall surf, mo_to_bezier (mo_assign mo_default o) surf = Throw ERuntime.
Proof.
  intros o n m En Sh surf. assert (trep v3d (mo_coeffs o) (S n) m (ent (mo_coeffs o))) as HT by (apply trep_ent; split; [exact Sh|reflexivity]).
  unfold mo_to_bezier, mo_assign. cbn [mo_Mvi mo_Mui mo_coeffs mo_n mo_m mo_default]. change (md_transpose (MD [] 0 0)) with (Ok (MD [] 0 0)). cbn [bind for_up].
  unfold mo_component. destruct (get_component_rep (mo_coeffs o) n m _ 0 HT) as (g & -> & (Rg & _)). cbn [bind]. unfold md_mul. cbn [md_cols]. rewrite Rg. reflexivity.
Qed.
