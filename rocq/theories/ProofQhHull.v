(** quickhull: a mesh with every point on its inner side is the convex hull. *)
From Coq Require Import List Arith Bool ZArith Reals Lra Lia Permutation.
From Verif Require Import Base LoopFacts ModelPlane ModelQuickhull SpecQuickhull ProofQhGeo ProofQhMesh.
Import ListNotations.
Local Open Scope R_scope.

(** ** Combinations *)
Definition wsum (ws : list R) : R := fold_right Rplus 0 ws.
Definition scale (a : R) (p : v3r) : v3r := RV (a * rx p) (a * ry p) (a * rz p).
Definition cone (l : list v3r) (s : R) (p : v3r) : Prop :=
  exists ws, length ws = length l /\ (forall w, In w ws -> 0 <= w) /\ wsum ws = s /\ weighted ws l = p.
Lemma in_hull_cone l p : in_hullr l p <-> cone l 1 p. Proof. reflexivity. Qed.
Lemma v3_eq p q : rx p = rx q -> ry p = ry q -> rz p = rz q -> p = q.
Proof. destruct p, q. cbn. congruence. Qed.
Lemma cone_zero l : cone l 0 (RV 0 0 0).
Proof.
  exists (map (fun _ => 0) l). split; [apply map_length|]. split; [intros w H; apply in_map_iff in H as (? & <- & _); lra|]. split.
  - unfold wsum. induction l as [|a l IH]; [reflexivity|]. cbn. rewrite IH. ring.
  - induction l as [|a l IH]; [reflexivity|]. cbn [map weighted]. rewrite IH. unfold rvadd. cbn. apply v3_eq; cbn; ring.
Qed.
Lemma cone_add l s p s' p' a b : 0 <= a -> 0 <= b -> cone l s p -> cone l s' p' -> cone l (a * s + b * s') (rvadd (scale a p) (scale b p')).
Proof.
  intros A B (ws & L1 & N1 & S1 & W1) (ws' & L2 & N2 & S2 & W2). exists (map (fun '(x, y) => a * x + b * y) (combine ws ws')). subst s p s' p'.
  revert ws ws' L1 N1 L2 N2. induction l as [|q l IH]; intros [|w ws] [|w' ws'] L1 N1 L2 N2; try discriminate.
  - split; [reflexivity|]. split; [intros w []|]. split; [cbn; ring|]. cbn. unfold scale, rvadd. apply v3_eq; cbn; ring.
  - destruct (IH ws ws') as (E1 & E2 & E3 & E4); [cbn in L1; lia|intros; apply N1; right; assumption|cbn in L2; lia|intros; apply N2; right; assumption|].
    cbn [combine map length weighted] in *. split; [lia|]. split; [intros x [<-|H]; [|exact (E2 x H)]|].
    + pose proof (N1 w (or_introl eq_refl)). pose proof (N2 w' (or_introl eq_refl)). nra.
    + split; [unfold wsum in *; cbn [fold_right]; rewrite E3; ring|]. rewrite E4. unfold scale, rvadd. apply v3_eq; cbn; ring.
Qed.
Lemma cone_in l p : In p l -> cone l 1 p.
Proof.
  induction l as [|q l IH]; [intros []|]. intros [<-|I].
  - destruct (cone_zero l) as (ws & L & N & E & W). exists (1 :: ws). split; [cbn; lia|]. split; [intros w [<-|H]; [lra|auto]|]. split; [unfold wsum in *; cbn; lra|]. cbn [weighted]. rewrite W. apply v3_eq; cbn; ring.
  - destruct (IH I) as (ws & L & N & E & W). exists (0 :: ws). split; [cbn; lia|]. split; [intros w [<-|H]; [lra|auto]|]. split; [unfold wsum in *; cbn; lra|]. cbn [weighted]. rewrite W. apply v3_eq; cbn; ring.
Qed.
Lemma cone_eq l s p s' p' : cone l s p -> s = s' -> p = p' -> cone l s' p'. Proof. intros H <- <-. exact H. Qed.
Lemma cone_incl l l' s p : incl l l' -> cone l s p -> cone l' s p.
Proof.
  intros I (ws & L & N & <- & <-). revert ws L N. induction l as [|q l IH]; intros [|w ws] L N; try discriminate; [exact (cone_zero l')|].
  apply (cone_eq l' (w * 1 + 1 * wsum ws) (rvadd (scale w q) (scale 1 (weighted ws l)))).
  - apply cone_add; [apply N; left; reflexivity|lra|apply cone_in, I; left; reflexivity|].
    apply IH; [intros x H; apply I; right; exact H|cbn in L; lia|intros; apply N; right; assumption].
  - unfold wsum. cbn. ring.
  - cbn [weighted]. apply v3_eq; cbn; ring.
Qed.
Lemma hull_incl l l' p : incl l l' -> in_hullr l p -> in_hullr l' p. Proof. apply cone_incl. Qed.
Lemma hull_bary l l0 l1 l2 a b c : 0 <= l0 -> 0 <= l1 -> 0 <= l2 -> l0 + l1 + l2 = 1 -> In a l -> In b l -> In c l -> in_hullr l (bary l0 l1 l2 a b c).
Proof.
  intros A B C E Ia Ib Ic. apply (cone_eq l (l0 * 1 + 1 * (l1 * 1 + l2 * 1)) (rvadd (scale l0 a) (scale 1 (rvadd (scale l1 b) (scale l2 c))))).
  - apply cone_add; [exact A|lra|apply cone_in; exact Ia|]. apply cone_add; try assumption; apply cone_in; assumption.
  - lra.
  - unfold bary. apply v3_eq; cbn; ring.
Qed.
Lemma hull_mix l t x y : 0 <= t <= 1 -> in_hullr l x -> in_hullr l y -> in_hullr l (mix t x y).
Proof.
  intros T X Y. apply (cone_eq l ((1 - t) * 1 + t * 1) (rvadd (scale (1 - t) x) (scale t y))).
  - apply cone_add; [lra|lra|exact X|exact Y].
  - ring.
  - unfold mix. apply v3_eq; cbn; ring.
Qed.

Section Hull.
Variable P : nat -> v3r.
Variable n : nat.
Variables (L : list nat) (vt : nat -> tri nat) (nb : nat -> three -> nat).

Section Strict.
Hypothesis M : mesh P n L vt nb.
(** a ray from the inside leaves through a facet *)
Lemma ray_exit x u : (forall f, In f L -> VT P (vt f) x <= 0) -> u <> RV 0 0 0 ->
  exists K s l0 l1 l2, In K L /\ 0 <= s /\ l0 + l1 + l2 = 1 /\ 0 <= l0 /\ 0 <= l1 /\ 0 <= l2 /\ rvadd x (scale s u) = tbary P l0 l1 l2 (vt K).
Proof.
  intros IN Nu. destruct (bounded P n L vt nb M u Nu) as (g & Ig & Bg).
  set (ST := (- VT P (vt g) x + 1) / rvdot (CT P (vt g)) u).
  assert (0 < ST) as PS by (unfold ST; apply Rmult_lt_0_compat; [pose proof (IN g Ig); lra|apply Rinv_0_lt_compat; exact Bg]).
  assert (forall f, VT P (vt f) (rvadd x (scale ST u)) = VT P (vt f) x + ST * rvdot (CT P (vt f)) u) as VS by
    (intros f; unfold VT; rewrite vol_shift; unfold CT; f_equal; unfold rvdot, scale; cbn; ring).
  destruct (exit_point (fun f => VT P (vt f) x) (fun f => VT P (vt f) (rvadd x (scale ST u))) L IN) as (K & IK & BK & t & Tt & Z & All);
    [exists g; split; [exact Ig|]; rewrite VS; replace (ST * rvdot (CT P (vt g)) u) with (- VT P (vt g) x + 1) by (unfold ST; field; lra); lra|].
  set (y := mix t x (rvadd x (scale ST u))).
  assert (forall f, VT P (vt f) y = (1 - t) * VT P (vt f) x + t * VT P (vt f) (rvadd x (scale ST u))) as VY by (intros f; apply vol_mix).
  destruct (in_triangle P n L vt nb M K y IK) as (l0 & l1 & l2 & E & A0 & A1 & A2 & Y);
    [rewrite VY; exact Z|intros v; rewrite VY; apply All; exact (proj1 (m_nbr _ _ _ _ _ M K v IK))|].
  exists K, (t * ST), l0, l1, l2. split; [exact IK|]. split; [nra|]. repeat (split; [assumption|]). rewrite <- Y. unfold y, mix, scale, rvadd. apply v3_eq; cbn; ring.
Qed.
(** a point on the inner side of every facet is a combination of the vertices *)
Lemma inside_in_hull l x : (forall f i, In f L -> InT i (vt f) -> In (P i) l) -> (forall f, In f L -> VT P (vt f) x <= 0) -> in_hullr l x.
Proof.
  intros VL IN. destruct L as [|f0 L0] eqn:EL; [destruct (m_some _ _ _ _ _ M); reflexivity|]. rewrite <- EL in *.
  assert (In f0 L) as I0' by (rewrite EL; left; reflexivity). clear EL L0.
  set (c := cent P vt f0).
  assert (in_hullr l c) as Hc.
  { unfold c, cent, tbary. apply hull_bary; try lra; apply (VL f0); try exact I0'; [exists I0|exists I1|exists I2]; reflexivity. }
  set (u := rvsub x c).
  destruct (Req_EM_T (rx u) 0) as [U0|U0]; [destruct (Req_EM_T (ry u) 0) as [U1|U1]; [destruct (Req_EM_T (rz u) 0) as [U2|U2]|]|].
  1:{ replace x with c; [exact Hc|]. unfold u in *. apply v3_eq; unfold rvsub in *; cbn in *; lra. }
  all: assert (u <> RV 0 0 0) as Nu by (intros X; rewrite X in *; cbn in *; congruence); clear - VL IN I0' Hc Nu M.
  all: destruct (ray_exit x u IN Nu) as (K & s & l0 & l1 & l2 & IK & S0 & E & A0 & A1 & A2 & Y).
  all: assert (in_hullr l (rvadd x (scale s u))) as Hy by (rewrite Y; unfold tbary; apply hull_bary; try assumption; apply (VL K); try exact IK; [exists I0|exists I1|exists I2]; reflexivity).
  all: assert (x = mix (/ (1 + s)) c (rvadd x (scale s u))) as EX;
    [unfold u, mix, scale, rvadd, rvsub; apply v3_eq; cbn; field; lra|].
  all: rewrite EX; apply hull_mix; [|exact Hc|exact Hy].
  all: split; [left; apply Rinv_0_lt_compat; lra|]; rewrite <- Rinv_1; apply Rinv_le_contravar; lra.
Qed.
End Strict.

End Hull.

Section Hull.
Variable P : nat -> v3r.
Variable n : nat.
Variables (L : list nat) (vt : nat -> tri nat) (nb : nat -> three -> nat).

(** ** A surface whose vertices, moved towards an inner point, span a strictly
    convex one *)
Section Pulled.
Variables (cen : v3r) (dl : nat -> R).
Let Q i := mix (dl i) (P i) cen.
Hypothesis M : mesh Q n L vt nb.
Hypothesis HC : forall f, In f L -> VT P (vt f) cen < 0.
Hypothesis HQ : forall f, In f L -> VT Q (vt f) cen < 0.
Hypothesis HD : forall f i, In f L -> InT i (vt f) -> 0 <= dl i < 1.

Lemma cone_pulled : forall js s p, (forall i, In i js -> 0 <= dl i < 1) -> cone (map Q js) s p ->
  exists r q, 0 <= r /\ cone (map P js) (s - r) q /\ p = rvadd q (scale r cen) /\ (0 < s -> r < s).
Proof.
  induction js as [|i js IH]; intros s p B (ws & E & N & <- & <-); destruct ws as [|w ws]; try discriminate.
  - exists 0, (RV 0 0 0). split; [lra|]. split; [apply (cone_eq _ 0 (RV 0 0 0)); [apply cone_zero|cbn; ring|reflexivity]|]. split; [apply v3_eq; cbn; ring|cbn; lra].
  - destruct (IH (wsum ws) (weighted ws (map Q js))) as (r & q & R0 & C & Eq & Lt).
    + intros j J. apply B. right. exact J.
    + exists ws. split; [cbn in E; lia|]. split; [intros x X; apply N; right; exact X|]. split; reflexivity.
    + pose proof (B i (or_introl eq_refl)) as Bi. pose proof (N w (or_introl eq_refl)) as Nw.
      assert (0 <= wsum ws) as Ns. { clear - N. assert (forall x, In x ws -> 0 <= x) as N' by (intros; apply N; right; assumption). clear N. unfold wsum. induction ws as [|x ws IH]; cbn; [lra|]. pose proof (N' x (or_introl eq_refl)). specialize (IH (fun y Y => N' y (or_intror Y))). lra. }
      assert (r <= wsum ws) as Rl. { destruct C as (ws' & _ & N' & S' & _). assert (0 <= wsum ws') as Ns'; [|lra]. clear - N'. unfold wsum. induction ws' as [|x ws IH]; cbn; [lra|]. pose proof (N' x (or_introl eq_refl)). specialize (IH (fun y Y => N' y (or_intror Y))). lra. }
      exists (w * dl i + r), (rvadd (scale (w * (1 - dl i)) (P i)) (scale 1 q)). split; [nra|]. split; [|split].
      * apply (cone_eq _ (w * (1 - dl i) * 1 + 1 * (wsum ws - r)) (rvadd (scale (w * (1 - dl i)) (P i)) (scale 1 q))); [|unfold wsum; cbn; ring|reflexivity].
        apply cone_add; [nra|lra|apply cone_in; left; reflexivity|]. apply (cone_incl (map P js)); [intros x X; right; exact X|exact C].
      * cbn [map weighted]. rewrite Eq. unfold Q, mix. apply v3_eq; cbn; ring.
      * change (wsum (w :: ws)) with (w + wsum ws). intros X. destruct (Req_dec w 0) as [->|W]; [assert (r < wsum ws) by (apply Lt; lra); lra|]. assert (w * dl i < w) by nra. lra.
Qed.
Definition vertices : list nat := flat_map (fun f => [t0 (vt f); t1 (vt f); t2 (vt f)]) L.
Lemma in_vertices i : In i vertices <-> exists f, In f L /\ InT i (vt f).
Proof.
  unfold vertices. rewrite in_flat_map. split; intros (f & A & B); exists f; split; try exact A.
  - destruct B as [<-|[<-|[<-|[]]]]; [exists I0|exists I1|exists I2]; reflexivity.
  - destruct B as [[] <-]; cbn; auto.
Qed.
Lemma cen_in_hull : in_hullr (map P vertices) cen.
Proof.
  assert (cone (map Q vertices) 1 cen) as C.
  { apply in_hull_cone, (inside_in_hull Q n L vt nb M); [|intros f I; specialize (HQ f I); lra]. intros f i If I. apply in_map, in_vertices. exists f. auto. }
  destruct (cone_pulled _ _ _ ltac:(intros i I; apply in_vertices in I as (f & If & T); exact (HD f i If T)) C) as (r & q & R0 & C' & E & Lt). specialize (Lt ltac:(lra)).
  apply (cone_eq _ (/ (1 - r) * (1 - r) + 0 * (1 - r)) (rvadd (scale (/ (1 - r)) q) (scale 0 q))); [|field; lra|].
  - apply cone_add; try assumption; [left; apply Rinv_0_lt_compat; lra|lra].
  - assert (rx q = (1 - r) * rx cen /\ ry q = (1 - r) * ry cen /\ rz q = (1 - r) * rz cen) as (X & Y & Z).
    { pose proof (f_equal rx E) as E1. pose proof (f_equal ry E) as E2. pose proof (f_equal rz E) as E3. cbn in E1, E2, E3. repeat split; lra. }
    apply v3_eq; cbn; rewrite ?X, ?Y, ?Z; field; lra.
Qed.
Lemma pulled_in_hull l x : (forall f i, In f L -> InT i (vt f) -> In (P i) l) -> (forall f, In f L -> VT P (vt f) x <= 0) -> in_hullr l x.
Proof.
  intros VL IN. assert (in_hullr l cen) as Hc.
  { apply (hull_incl (map P vertices)); [|exact cen_in_hull]. intros p I. apply in_map_iff in I as (i & <- & I). apply in_vertices in I as (f & If & T). exact (VL f i If T). }
  set (u := rvsub x cen).
  assert (x = cen \/ u <> RV 0 0 0) as [->|Nu].
  { destruct (Req_EM_T (rx u) 0) as [U0|U0]; [destruct (Req_EM_T (ry u) 0) as [U1|U1]; [destruct (Req_EM_T (rz u) 0) as [U2|U2]|]|]; [left; unfold u in *; apply v3_eq; unfold rvsub in *; cbn in *; lra|right..]; intros X; rewrite X in *; cbn in *; congruence. }
  { exact Hc. }
  destruct (ray_exit Q n L vt nb M cen u ltac:(intros f I; specialize (HQ f I); lra) Nu) as (K & s & l0 & l1 & l2 & IK & S0 & E & A0 & A1 & A2 & Y).
  assert (0 < s) as S1 by (destruct (Req_dec s 0) as [Z|Z]; [exfalso|lra]; rewrite Z in Y; specialize (HQ K IK); revert HQ; replace cen with (rvadd cen (scale 0 u)) at 1 by (apply v3_eq; cbn; ring); rewrite Y, VT_tbary by exact E;
      rewrite (VT_at Q (t0 (vt K))), (VT_at Q (t1 (vt K))), (VT_at Q (t2 (vt K))) by (first [exists I0; reflexivity|exists I1; reflexivity|exists I2; reflexivity]); lra).
  pose proof (HD K (t0 (vt K)) IK ltac:(exists I0; reflexivity)) as D0; pose proof (HD K (t1 (vt K)) IK ltac:(exists I1; reflexivity)) as D1; pose proof (HD K (t2 (vt K)) IK ltac:(exists I2; reflexivity)) as D2.
  set (m0 := l0 * (1 - dl (t0 (vt K))) / s); set (m1 := l1 * (1 - dl (t1 (vt K))) / s); set (m2 := l2 * (1 - dl (t2 (vt K))) / s).
  assert (0 < / s) as SI by (apply Rinv_0_lt_compat; exact S1).
  assert (0 <= m0 /\ 0 <= m1 /\ 0 <= m2) as (N0 & N1 & N2) by (repeat split; apply Rmult_le_pos; nra).
  set (a := P (t0 (vt K))) in *; set (b := P (t1 (vt K))) in *; set (c := P (t2 (vt K))) in *.
  assert (forall g : v3r -> R, (g = rx \/ g = ry \/ g = rz) -> g x = (1 - m0 - m1 - m2) * g cen + m0 * g a + m1 * g b + m2 * g c) as EX.
  { intros g Hg; pose proof (f_equal g Y) as Yg; assert (l0 = 1 - l1 - l2) as El by lra; unfold m0, m1, m2; apply (Rmult_eq_reg_l s); [|lra].
    set (d0 := dl (t0 (vt K))) in *. set (d1 := dl (t1 (vt K))) in *. set (d2 := dl (t2 (vt K))) in *.
    transitivity (s * g cen + l0 * (1 - d0) * (g a - g cen) + l1 * (1 - d1) * (g b - g cen) + l2 * (1 - d2) * (g c - g cen)); [|field; lra].
    destruct Hg as [->|[->| ->]]; unfold tbary, bary, Q, mix, u, rvadd, scale, rvsub in Yg; cbn [rx ry rz] in Yg; fold a b c d0 d1 d2 in Yg; rewrite El in *; lra. }
  assert (VT P (vt K) x = (1 - m0 - m1 - m2) * VT P (vt K) cen) as EV.
  { assert (x = RV ((1 - m0 - m1 - m2) * rx cen + m0 * rx a + m1 * rx b + m2 * rx c) ((1 - m0 - m1 - m2) * ry cen + m0 * ry a + m1 * ry b + m2 * ry c) ((1 - m0 - m1 - m2) * rz cen + m0 * rz a + m1 * rz b + m2 * rz c)) as -> by (apply v3_eq; cbn [rx ry rz]; apply EX; auto);
    unfold VT; fold a b c; vols; ring. }
  pose proof (IN K IK) as VK; rewrite EV in VK; pose proof (HC K IK) as CK.
  assert (0 <= 1 - m0 - m1 - m2) as N3 by nra.
  apply (cone_eq l (1 * ((1 - m0 - m1 - m2) * 1 + m0 * 1) + 1 * (m1 * 1 + m2 * 1)) (rvadd (scale 1 (rvadd (scale (1 - m0 - m1 - m2) cen) (scale m0 a))) (scale 1 (rvadd (scale m1 b) (scale m2 c))))); [|ring|apply v3_eq; [rewrite (EX rx) by auto|rewrite (EX ry) by auto|rewrite (EX rz) by auto]; cbn; ring].
  repeat (apply cone_add; try assumption; try lra); try (apply cone_in, (VL K); try exact IK; first [exists I0; reflexivity|exists I1; reflexivity|exists I2; reflexivity]).
Qed.
End Pulled.

(** ** The vertices are extreme *)
Lemma weighted_affine (cc : v3r) (k : R) : forall ws l, length ws = length l ->
  fold_right Rplus 0 (map (fun '(w, p) => w * (rvdot cc p + k)) (combine ws l)) = rvdot cc (weighted ws l) + k * wsum ws.
Proof.
  induction ws as [|w ws IH]; intros [|p l] E; try discriminate; [cbn; unfold rvdot; cbn; ring|]. cbn [combine map fold_right weighted]. rewrite IH by (cbn in E; lia).
  unfold wsum. cbn [fold_right]. unfold rvdot, rvadd. cbn. ring.
Qed.
Hypothesis GP : forall a b c d, (a < n)%nat -> (b < n)%nat -> (c < n)%nat -> (d < n)%nat -> NoDup [a; b; c; d] -> vol (P a) (P b) (P c) (P d) <> 0.
Lemma VT_nonzero t i : good_tri n t -> (i < n)%nat -> ~ InT i t -> VT P t (P i) <> 0.
Proof.
  intros [B D] I N. unfold VT. apply GP; [apply (B I0)|apply (B I1)|apply (B I2)|exact I|].
  assert (t0 t <> t1 t) by (intros E; specialize (D I0 I1 E); discriminate). assert (t0 t <> t2 t) by (intros E; specialize (D I0 I2 E); discriminate).
  assert (t1 t <> t2 t) by (intros E; specialize (D I1 I2 E); discriminate).
  assert (t0 t <> i) by (intros E; apply N; exists I0; exact E). assert (t1 t <> i) by (intros E; apply N; exists I1; exact E). assert (t2 t <> i) by (intros E; apply N; exists I2; exact E).
  repeat (constructor; [cbn; intuition congruence|]). constructor.
Qed.
Lemma two_left K v : In K L -> good_tri n (vt K) -> (forall i, (i < n)%nat -> VT P (vt K) (P i) <= 0) -> forall js ws, length ws = length js ->
  (forall j, In j js -> (j < n)%nat /\ j <> tget v (vt K)) -> (forall w, In w ws -> 0 <= w) ->
  fold_right Rplus 0 (map (fun '(w, p) => w * VT P (vt K) p) (combine ws (map P js))) = 0 ->
  exists l1 l2, l1 + l2 = wsum ws /\ weighted ws (map P js) = rvadd (scale l1 (P (tget (nx v) (vt K)))) (scale l2 (P (tget (nx (nx v)) (vt K)))).
Proof.
  intros IK GT IN. induction js as [|j js IH]; intros [|w ws] E B N Z; try discriminate.
  - exists 0, 0. split; [cbn; lra|]. cbn. apply v3_eq; cbn; ring.
  - cbn [map combine fold_right] in Z.
    assert (forall ws js, length ws = length js -> (forall j, In j js -> (j < n)%nat) -> (forall w, In w ws -> 0 <= w) -> fold_right Rplus 0 (map (fun '(w, p) => w * VT P (vt K) p) (combine ws (map P js))) <= 0) as NEG.
    { clear - IN. induction ws as [|w ws IH]; intros [|j js] E B N; try discriminate; [cbn; lra|]. cbn [map combine fold_right].
      pose proof (IH js) as X. specialize (X ltac:(cbn in E; lia) ltac:(intros; apply B; right; assumption) ltac:(intros; apply N; right; assumption)).
      pose proof (IN j (B j (or_introl eq_refl))). pose proof (N w (or_introl eq_refl)). nra. }
    destruct (B j (or_introl eq_refl)) as [Bj Nj]. pose proof (IN j Bj) as Vj. pose proof (N w (or_introl eq_refl)) as Nw.
    pose proof (NEG ws js) as X. specialize (X ltac:(cbn in E; lia) ltac:(intros; apply B; right; assumption) ltac:(intros; apply N; right; assumption)).
    assert (w * VT P (vt K) (P j) = 0) as Zw by nra.
    destruct (IH ws) as (l1 & l2 & S12 & W12); [cbn in E; lia|intros; apply B; right; assumption|intros; apply N; right; assumption|lra|].
    cbn [map weighted]. unfold wsum in *. cbn [fold_right]. rewrite W12.
    destruct (InT_dec j (vt K)) as [T|T].
    + apply (InT_side j (vt K) v) in T as [T|[T|T]]; [contradiction| |].
      * exists (w + l1), l2. split; [lra|]. rewrite T. apply v3_eq; cbn; ring.
      * exists l1, (w + l2). split; [lra|]. rewrite T. apply v3_eq; cbn; ring.
    + assert (VT P (vt K) (P j) <> 0) as NZ by (apply VT_nonzero; assumption).
      assert (w = 0) as -> by (apply Rmult_integral in Zw as [Zw|Zw]; [exact Zw|contradiction]).
      exists l1, l2. split; [lra|]. apply v3_eq; cbn; ring.
Qed.
Lemma vertex_extreme K v js cen : In K L -> good_tri n (vt K) -> VT P (vt K) cen < 0 -> (forall i, (i < n)%nat -> VT P (vt K) (P i) <= 0) -> (forall j, In j js -> (j < n)%nat /\ j <> tget v (vt K)) ->
  ~ in_hullr (map P js) (P (tget v (vt K))).
Proof.
  intros IK GT V IN B (ws & E & N & S1 & W). rewrite map_length in E. fold (wsum ws) in S1.
  assert (fold_right Rplus 0 (map (fun '(w, p) => w * VT P (vt K) p) (combine ws (map P js))) = 0) as Z.
  { assert (forall p, VT P (vt K) p = rvdot (CT P (vt K)) p + (- rvdot (CT P (vt K)) (P (t0 (vt K))))) as AF by (intros p; unfold VT, CT; rewrite vol_cr; unfold rvdot, rvsub; cbn; ring).
    rewrite (map_ext _ (fun '(w, p) => w * (rvdot (CT P (vt K)) p + (- rvdot (CT P (vt K)) (P (t0 (vt K))))))) by (intros [w p]; rewrite AF; reflexivity).
    rewrite weighted_affine by (rewrite map_length; exact E). rewrite W, S1, Rmult_1_r, <- AF. apply VT_at. exists v. reflexivity. }
  destruct (two_left K v IK GT IN js ws E B N Z) as (l1 & l2 & S12 & W12). rewrite W in W12. rewrite S1 in S12.
  assert (VT P (vt K) cen = vol (P (tget v (vt K))) (P (tget (nx v) (vt K))) (P (tget (nx (nx v)) (vt K))) cen) as E1.
  { unfold VT. destruct v; cbn [nx tget]; [reflexivity|symmetry; apply vol_rot|rewrite vol_rot; reflexivity]. }
  rewrite E1, W12 in V. replace l2 with (1 - l1) in V by lra. revert V.
  destruct (P (tget (nx v) (vt K))) as [a0 a1 a2], (P (tget (nx (nx v)) (vt K))) as [b0 b1 b2], cen as [d0 d1 d2]. unfold scale. vols. intros V.
  match type of V with ?e < 0 => assert (e = 0) by ring end. lra.
Qed.
End Hull.
