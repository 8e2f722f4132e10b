(** Derivatives of the basis functions and their continuity at knots. *)
From Coq Require Import List ZArith QArith Qcanon Lia Bool.
From Verif Require Import Base BaseFacts ModelVec ModelNurbs SpecNurbs ProofBspline ProofCurve ProofMinimize.
Import ListNotations.
Open Scope Qc_scope.

(** f(u + h) = f(u) + h g(u) + O(h^2) at every u *)
Definition smooth (f g : Qc -> Qc) : Prop :=
  forall u, exists K, 0 <= K /\ forall h, Qcabs h <= 1 -> Qcabs (f (u + h) - f u - h * g u) <= K * (h * h).

Lemma Qcabs_nonneg a : 0 <= Qcabs a.
Proof. destruct (Qcabs_cases a) as [[H ->]|[H ->]]; qc_lra. Qed.
Lemma Qcabs_triangle a b : Qcabs (a + b) <= Qcabs a + Qcabs b.
Proof.
  destruct (Qcabs_cases a) as [[H ->]|[H ->]], (Qcabs_cases b) as [[H1 ->]|[H1 ->]], (Qcabs_cases (a + b)) as [[H2 ->]|[H2 ->]]; qc_lra.
Qed.
Lemma Qcabs_mul a b : Qcabs (a * b) = Qcabs a * Qcabs b.
Proof.
  destruct (Qcabs_cases a) as [[H ->]|[H ->]], (Qcabs_cases b) as [[H1 ->]|[H1 ->]], (Qcabs_cases (a * b)) as [[H2 ->]|[H2 ->]]; try ring.
  - assert (0 <= a * b) by (apply ProofMinimize.Qcmul_nonneg; qc_lra). assert (a * b = 0) as E by (apply Qcle_antisym; qc_lra). rewrite E; ring.
  - assert (0 <= a * - b) by (apply ProofMinimize.Qcmul_nonneg; qc_lra). assert (a * b = 0) as E.
    { apply Qcle_antisym; [|qc_lra]. replace (a * b) with (- (a * - b)) by ring. qc_lra. }
    replace (a * - b) with (- (a * b)) by ring. rewrite E. ring.
  - assert (0 <= - a * b) by (apply ProofMinimize.Qcmul_nonneg; qc_lra). assert (a * b = 0) as E.
    { apply Qcle_antisym; [|qc_lra]. replace (a * b) with (- (- a * b)) by ring. qc_lra. }
    replace (- a * b) with (- (a * b)) by ring. rewrite E. ring.
  - assert (0 <= - a * - b) by (apply ProofMinimize.Qcmul_nonneg; qc_lra). assert (a * b = 0) as E.
    { apply Qcle_antisym; [qc_lra|]. replace (a * b) with (- a * - b) by ring. qc_lra. }
    replace (- a * - b) with (a * b) by ring. rewrite E. ring.
Qed.
Lemma Qcabs_0 : Qcabs 0 = 0.
Proof. reflexivity. Qed.
Lemma Qcabs_opp a : Qcabs (- a) = Qcabs a.
Proof.
  destruct (Qcabs_cases a) as [[H ->]|[H ->]], (Qcabs_cases (- a)) as [[H1 ->]|[H1 ->]]; try ring; apply Qcle_antisym; qc_lra.
Qed.
Lemma Qcabs_le a k : Qcabs a <= k <-> (- k <= a /\ a <= k).
Proof. destruct (Qcabs_cases a) as [[H ->]|[H ->]]; (split; [intros Q; split; qc_lra|intros [Q1 Q2]; qc_lra]). Qed.
Lemma Qcsq_abs h : h * h = Qcabs h * Qcabs h.
Proof. destruct (Qcabs_cases h) as [[H ->]|[H ->]]; ring. Qed.
Lemma Qcsq_nonneg (h : Qc) : 0 <= h * h.
Proof. rewrite Qcsq_abs. pose proof (Qcabs_nonneg h). apply ProofMinimize.Qcmul_nonneg; assumption. Qed.
Lemma Qcmul_le_l a b c : 0 <= a -> b <= c -> a * b <= a * c.
Proof. intros A B. assert (0 <= a * (c - b)) as H by (apply ProofMinimize.Qcmul_nonneg; qc_lra). replace (a * (c - b)) with (a * c - a * b) in H by ring. qc_lra. Qed.
Lemma Qcmul_le2 a b c d : 0 <= a -> a <= b -> 0 <= c -> c <= d -> a * c <= b * d.
Proof.
  intros. apply Qcle_trans with (a * d); [apply Qcmul_le_l; assumption|]. rewrite (Qcmult_comm a), (Qcmult_comm b). apply Qcmul_le_l; qc_lra.
Qed.

Lemma smooth_ext f g f' g' : (forall u, f u = f' u) -> (forall u, g u = g' u) -> smooth f g -> smooth f' g'.
Proof. intros F G H u. destruct (H u) as (K & K0 & HK). exists K. split; [assumption|]. intros h Hh. rewrite <- !F, <- G. auto. Qed.

Lemma smooth_affine a b : smooth (fun u => a * u + b) (fun _ => a).
Proof.
  intros u. exists 0. split; [apply Qcle_refl|]. intros h _. replace (a * (u + h) + b - (a * u + b) - h * a) with 0 by ring.
  rewrite Qcabs_0. replace (0 * (h * h)) with 0 by ring. apply Qcle_refl.
Qed.
Lemma smooth_const a : smooth (fun _ => a) (fun _ => 0).
Proof. apply (smooth_ext (fun u => 0 * u + a) (fun _ => 0)); [intros; ring|reflexivity|apply smooth_affine]. Qed.

Lemma smooth_add f1 g1 f2 g2 : smooth f1 g1 -> smooth f2 g2 -> smooth (fun u => f1 u + f2 u) (fun u => g1 u + g2 u).
Proof.
  intros H1 H2 u. destruct (H1 u) as (K1 & P1 & HK1). destruct (H2 u) as (K2 & P2 & HK2).
  exists (K1 + K2). split; [qc_lra|]. intros h Hh. specialize (HK1 h Hh). specialize (HK2 h Hh).
  replace (f1 (u + h) + f2 (u + h) - (f1 u + f2 u) - h * (g1 u + g2 u)) with
    ((f1 (u + h) - f1 u - h * g1 u) + (f2 (u + h) - f2 u - h * g2 u)) by ring.
  eapply Qcle_trans; [apply Qcabs_triangle|]. replace ((K1 + K2) * (h * h)) with (K1 * (h * h) + K2 * (h * h)) by ring. qc_lra.
Qed.

Lemma smooth_mul f1 g1 f2 g2 : smooth f1 g1 -> smooth f2 g2 -> smooth (fun u => f1 u * f2 u) (fun u => g1 u * f2 u + f1 u * g2 u).
Proof.
  intros H1 H2 u. destruct (H1 u) as (K1 & P1 & HK1). destruct (H2 u) as (K2 & P2 & HK2).
  set (F1 := f1 u) in *. set (F2 := f2 u) in *. set (G1 := g1 u) in *. set (G2 := g2 u) in *.
  exists (Qcabs (G1 * G2) + Qcabs F1 * K2 + Qcabs F2 * K1 + Qcabs G1 * K2 + Qcabs G2 * K1 + K1 * K2).
  pose proof (Qcabs_nonneg (G1 * G2)). pose proof (Qcabs_nonneg F1). pose proof (Qcabs_nonneg F2). pose proof (Qcabs_nonneg G1). pose proof (Qcabs_nonneg G2).
  split.
  { assert (0 <= Qcabs F1 * K2) by (apply ProofMinimize.Qcmul_nonneg; assumption). assert (0 <= Qcabs F2 * K1) by (apply ProofMinimize.Qcmul_nonneg; assumption).
    assert (0 <= Qcabs G1 * K2) by (apply ProofMinimize.Qcmul_nonneg; assumption). assert (0 <= Qcabs G2 * K1) by (apply ProofMinimize.Qcmul_nonneg; assumption).
    assert (0 <= K1 * K2) by (apply ProofMinimize.Qcmul_nonneg; assumption). qc_lra. }
  intros h Hh. specialize (HK1 h Hh). specialize (HK2 h Hh).
  set (e1 := f1 (u + h) - F1 - h * G1) in *. set (e2 := f2 (u + h) - F2 - h * G2) in *.
  replace (f1 (u + h) * f2 (u + h) - F1 * F2 - h * (G1 * F2 + F1 * G2)) with
    ((h * h) * (G1 * G2) + (F1 * e2 + (F2 * e1 + (h * (G1 * e2) + (h * (G2 * e1) + e1 * e2))))) by (unfold e1, e2; ring).
  set (q := h * h) in *. pose proof (Qcsq_nonneg h) as Q0. fold q in Q0.
  assert (q <= 1) as Q1. { unfold q. rewrite Qcsq_abs. pose proof (Qcabs_nonneg h). replace 1 with (1 * 1) by ring. apply Qcmul_le2; assumption. }
  assert (forall e K, 0 <= K -> Qcabs e <= K * q -> forall c, Qcabs (c * e) <= Qcabs c * K * q) as L.
  { intros e K _ He c. rewrite Qcabs_mul. replace (Qcabs c * K * q) with (Qcabs c * (K * q)) by ring. apply Qcmul_le_l; [apply Qcabs_nonneg|assumption]. }
  assert (forall e K, 0 <= K -> Qcabs e <= K * q -> forall c, Qcabs (h * (c * e)) <= Qcabs c * K * q) as L'.
  { intros e K HK He c. rewrite Qcabs_mul. replace (Qcabs c * K * q) with (1 * (Qcabs c * K * q)) by ring. apply Qcmul_le2; try apply Qcabs_nonneg; try assumption.
    apply L; assumption. }
  repeat (eapply Qcle_trans; [apply Qcabs_triangle|]).
  replace ((Qcabs (G1 * G2) + Qcabs F1 * K2 + Qcabs F2 * K1 + Qcabs G1 * K2 + Qcabs G2 * K1 + K1 * K2) * q) with
    (Qcabs (G1 * G2) * q + (Qcabs F1 * K2 * q + (Qcabs F2 * K1 * q + (Qcabs G1 * K2 * q + (Qcabs G2 * K1 * q + K1 * K2 * q))))) by ring.
  assert (Qcabs (q * (G1 * G2)) <= Qcabs (G1 * G2) * q) as B0.
  { rewrite Qcabs_mul. assert (Qcabs q = q) as ->. { destruct (Qcabs_cases q) as [[Hq ->]|[Hq ->]]; [reflexivity|]. apply Qcle_antisym; qc_lra. } rewrite Qcmult_comm. apply Qcle_refl. }
  pose proof (L e2 K2 P2 HK2 F1) as B1. pose proof (L e1 K1 P1 HK1 F2) as B2. pose proof (L' e2 K2 P2 HK2 G1) as B3. pose proof (L' e1 K1 P1 HK1 G2) as B4.
  assert (Qcabs (e1 * e2) <= K1 * K2 * q) as B5.
  { rewrite Qcabs_mul. apply Qcle_trans with ((K1 * q) * (K2 * q)). { apply Qcmul_le2; try apply Qcabs_nonneg; assumption. }
    replace (K1 * q * (K2 * q)) with ((K1 * K2 * q) * q) by ring. apply Qcle_trans with (K1 * K2 * q * 1); [|rewrite Qcmult_1_r; apply Qcle_refl].
    apply Qcmul_le_l; [|assumption]. apply ProofMinimize.Qcmul_nonneg; [apply ProofMinimize.Qcmul_nonneg; assumption|assumption]. }
  set (x0 := Qcabs (q * (G1 * G2))) in *. set (x1 := Qcabs (F1 * e2)) in *. set (x2 := Qcabs (F2 * e1)) in *.
  set (x3 := Qcabs (h * (G1 * e2))) in *. set (x4 := Qcabs (h * (G2 * e1))) in *. set (x5 := Qcabs (e1 * e2)) in *.
  set (y0 := Qcabs (G1 * G2) * q) in *. set (y1 := Qcabs F1 * K2 * q) in *. set (y2 := Qcabs F2 * K1 * q) in *. set (y3 := Qcabs G1 * K2 * q) in *.
  set (y4 := Qcabs G2 * K1 * q) in *. set (y5 := K1 * K2 * q) in *.
  pose proof (Qcabs_triangle (h * (G2 * e1)) (e1 * e2)) as T4. fold x4 x5 in T4.
  pose proof (Qcabs_triangle (h * (G1 * e2)) (h * (G2 * e1) + e1 * e2)) as T3. fold x3 in T3.
  pose proof (Qcabs_triangle (F2 * e1) (h * (G1 * e2) + (h * (G2 * e1) + e1 * e2))) as T2. fold x2 in T2.
  pose proof (Qcabs_triangle (F1 * e2) (F2 * e1 + (h * (G1 * e2) + (h * (G2 * e1) + e1 * e2)))) as T1. fold x1 in T1.
  clearbody x0 x1 x2 x3 x4 x5 y0 y1 y2 y3 y4 y5. clear - B0 B1 B2 B3 B4 B5 T1 T2 T3 T4.
  revert T1 T2 T3 T4. generalize (Qcabs (h * (G2 * e1) + e1 * e2)) (Qcabs (h * (G1 * e2) + (h * (G2 * e1) + e1 * e2)))
    (Qcabs (F2 * e1 + (h * (G1 * e2) + (h * (G2 * e1) + e1 * e2)))) (Qcabs (F1 * e2 + (F2 * e1 + (h * (G1 * e2) + (h * (G2 * e1) + e1 * e2))))).
  intros. qc_lra.
Qed.

Lemma smooth_scale k f g : smooth f g -> smooth (fun u => k * f u) (fun u => k * g u).
Proof.
  intros H. eapply smooth_ext; [| |apply (smooth_mul (fun _ => k) (fun _ => 0) f g (smooth_const k) H)]; intros; cbn; ring.
Qed.
Lemma smooth_qsum (f g : nat -> Qc -> Qc) n : (forall i, (i < n)%nat -> smooth (f i) (g i)) -> smooth (fun u => qsum (fun i => f i u) n) (fun u => qsum (fun i => g i u) n).
Proof.
  induction n; intros H; cbn [qsum]; [apply smooth_const|]. apply smooth_add; [apply IHn; intros; apply H; lia|apply H; lia].
Qed.

(** k-th derivative of the basis functions *)
Fixpoint bspd (U : nat -> Qc) (s k p i : nat) (u : Qc) : Qc :=
  match k with
  | O => bsp U s p i u
  | S k' => match p with
            | O => 0
            | S q => Qc_of_nat (S q) * (bspd U s k' q i u / (U (i + S q)%nat - U i)
                                        - bspd U s k' q (i + 1) u / (U (i + S q + 1)%nat - U (i + 1)%nat))
            end
  end.

Lemma Qc_of_nat_S n : Qc_of_nat (S n) = Qc_of_nat n + 1.
Proof. apply Qc_is_canon. unfold Qc_of_nat. rewrite this_plus, !this_of_Z. change (this 1) with 1%Q. rewrite Nat2Z.inj_succ, <- Z.add_1_r, inject_Z_plus. reflexivity. Qed.

Lemma bsp_smooth U s : mono U -> forall p i, smooth (bsp U s p i) (bspd U s 1 p i).
Proof.
  intros M p. induction p as [|q IH]; intros i; [apply (smooth_ext (fun _ => if Nat.eqb i s then 1 else 0) (fun _ => 0)); try reflexivity; apply smooth_const|].
  set (A := / (U (i + S q)%nat - U i)). set (B := / (U (i + S q + 1)%nat - U (i + 1)%nat)).
  pose proof (smooth_add _ _ _ _ (smooth_mul _ _ _ _ (smooth_affine A (- U i * A)) (IH i))
     (smooth_mul _ _ _ _ (smooth_affine (- B) (U (i + S q + 1)%nat * B)) (IH (i + 1)%nat))) as H.
  refine (smooth_ext _ _ _ _ _ _ H).
  - intros u. cbn [bsp]. unfold Qcdiv. fold A B. ring.
  - intros u. clear H IH. destruct q as [|q].
    + cbn [bspd bsp]. unfold Qcdiv. replace (i + 1 + 0)%nat with (i + 1)%nat by lia. fold A B. change (Qc_of_nat 1) with 1. ring.
    + cbn [bspd]. rewrite (bsp_S U s q i u), (bsp_S U s q (i + 1) u).
      unfold A, B. replace (i + 1 + S q)%nat with (i + S q + 1)%nat by lia. replace (i + S (S q))%nat with (i + S q + 1)%nat by lia. replace (i + 1 + S (S q))%nat with (i + S q + 1 + 1)%nat by lia.
      replace (i + 1 + S q + 1)%nat with (i + S q + 1 + 1)%nat by lia. rewrite (Qc_of_nat_S (S q)).
      set (a0 := U i). set (a1 := U (i + 1)%nat). set (a2 := U (i + 1 + 1)%nat). set (c0 := U (i + S q)%nat). set (c1 := U (i + S q + 1)%nat). set (c2 := U (i + S q + 1 + 1)%nat).
      set (x := bsp U s q i u). set (y := bsp U s q (i + 1) u). set (z := bsp U s q (i + 1 + 1) u). set (k := Qc_of_nat (S q)).
      assert (a0 <= a1) as O1 by (apply M; lia). assert (a1 <= c1) as O2 by (apply M; lia). assert (c1 <= c2) as O3 by (apply M; lia).
      clearbody a0 a1 a2 c0 c1 c2 x y z k. clear M IH || clear M.
      destruct (Qc_eq_dec c1 a1) as [E|E].
      * subst c1. replace (a1 - a1) with 0 by ring. unfold Qcdiv. change (/ 0) with 0. ring.
      * assert (c1 - a0 <> 0) as N1. { intros E'. apply E. apply Qcle_antisym; qc_lra. }
        assert (c2 - a1 <> 0) as N2. { intros E'. apply E. apply Qcle_antisym; qc_lra. }
        assert (c1 - a1 <> 0) as N3. { intros E'. apply E. apply Qcle_antisym; qc_lra. }
        unfold Qcdiv. generalize (/ (c0 - a0)) (/ (c2 - a2)). intros v w. field. auto.
Qed.

Lemma bspd_S U s k q i u : bspd U s (S k) (S q) i u = Qc_of_nat (S q) * (bspd U s k q i u / (U (i + S q)%nat - U i)
                                        - bspd U s k q (i + 1) u / (U (i + S q + 1)%nat - U (i + 1)%nat)).
Proof. reflexivity. Qed.

Lemma bspd_smooth U s : mono U -> forall k p i, smooth (bspd U s k p i) (bspd U s (S k) p i).
Proof.
  intros M k. induction k as [|k IH]; intros p i; [apply bsp_smooth; assumption|].
  destruct p as [|q]; [apply (smooth_ext (fun _ => 0) (fun _ => 0)); try reflexivity; apply smooth_const|].
  refine (smooth_ext _ _ _ _ _ _ (smooth_add _ _ _ _ (smooth_scale (Qc_of_nat (S q) / (U (i + S q)%nat - U i)) _ _ (IH q i))
    (smooth_scale (- Qc_of_nat (S q) / (U (i + S q + 1)%nat - U (i + 1)%nat)) _ _ (IH q (i + 1)%nat)))); intros u; cbv beta; rewrite bspd_S; unfold Qcdiv; ring.
Qed.

(** at a knot of multiplicity m <= p - k the k-th derivatives of both sides agree *)
Lemma bsp_join U s s' u : mono U -> span_ok U s u -> span_ok U s' u -> (s <= s')%nat -> (forall j, (s < j <= s')%nat -> U j = u) ->
  forall p, (s' - s <= p)%nat -> forall i, bsp U s p i u = bsp U s' p i u.
Proof.
  intros M A B L E p. induction p as [|p IH]; intros Hp i.
  - replace s' with s by lia. reflexivity.
  - destruct (Nat.eq_dec (s' - s) (S p)) as [D|D].
    + rewrite (bsp_mult_right U s u M A (S p)) by (intros; apply E; lia).
      rewrite (bsp_mult_left U s' u M B (S p)); [|lia|intros; apply E; lia]. replace (s' - S p)%nat with s by lia. reflexivity.
    + cbn [bsp]. rewrite !IH by lia. reflexivity.
Qed.
Lemma bspd_join U s s' u : mono U -> span_ok U s u -> span_ok U s' u -> (s <= s')%nat -> (forall j, (s < j <= s')%nat -> U j = u) ->
  forall k p, (s' - s + k <= p)%nat -> forall i, bspd U s k p i u = bspd U s' k p i u.
Proof.
  intros M A B L E k. induction k as [|k IH]; intros p Hp i; [apply bsp_join; auto; lia|].
  destruct p as [|q]; [lia|]. rewrite !bspd_S, !IH by lia. reflexivity.
Qed.

(** outside the support *)
Lemma bspd_right U s k : forall p i u, (s < i)%nat -> bspd U s k p i u = 0.
Proof. induction k; intros p i u H; [apply bsp_right; assumption|]. destruct p; [reflexivity|]. rewrite bspd_S, !IHk by lia. unfold Qcdiv. ring. Qed.
Lemma bspd_left U s k : forall p i u, (i + p < s)%nat -> bspd U s k p i u = 0.
Proof. induction k; intros p i u H; [apply bsp_left; assumption|]. destruct p; [reflexivity|]. rewrite bspd_S, !IHk by lia. unfold Qcdiv. ring. Qed.
Lemma bspd_sum_support U s k p u (f : nat -> Qc) m : (p <= s)%nat -> (s < m)%nat ->
  qsum (fun i => bspd U s k p i u * f i) m = qsum (fun r => bspd U s k p (s - p + r) u * f (s - p + r)%nat) (S p).
Proof.
  intros Hp Hs. replace m with ((s - p) + (S p + (m - S s)))%nat by lia.
  rewrite qsum_split. rewrite (qsum_zero _ (s - p)).
  2:{ intros i Hi. rewrite bspd_left by lia. ring. }
  rewrite qsum_split. rewrite (qsum_zero _ (m - S s)).
  2:{ intros i Hi. rewrite bspd_right by lia. ring. }
  ring.
Qed.

(** moving the index origin *)
Lemma bsp_shift U m s p : forall i u, bsp U (m + s) p (m + i) u = bsp (fun j => U (m + j)%nat) s p i u.
Proof.
  induction p as [|p IH]; intros i u; cbn [bsp].
  - destruct (Nat.eqb_spec (m + i) (m + s)), (Nat.eqb_spec i s); try lia; reflexivity.
  - rewrite <- !IH, !Nat.add_assoc. reflexivity.
Qed.
Lemma bspd_shift U m s k : forall p i u, bspd U (m + s) k p (m + i) u = bspd (fun j => U (m + j)%nat) s k p i u.
Proof.
  induction k as [|k IH]; intros p i u; [apply bsp_shift|]. destruct p as [|p]; [reflexivity|]. rewrite !bspd_S, <- !IH, !Nat.add_assoc. reflexivity.
Qed.
