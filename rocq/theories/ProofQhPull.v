(** quickhull: on a grid the vertices can be moved towards the middle by amounts
    that keep every side and make the surface strictly convex. *)
From Coq Require Import List Arith Bool ZArith Reals Lra Lia.
From Verif Require Import Base LoopFacts ModelPlane ModelQuickhull SpecQuickhull ProofQhGeo ProofQhMesh ProofQhRidge ProofQhWalk ProofQhStep ProofQhDet ProofQhInit.
Import ListNotations.
Local Open Scope R_scope.

Definition trip (o p q r : v3r) : R := rvdot (rvcross (rvsub p o) (rvsub q o)) (rvsub r o).
Lemma vol_trip o a b c x : vol a b c x = trip o b c x - trip o a c x + trip o a b x - trip o a b c.
Proof. unfold trip. vols. ring. Qed.
Lemma vol_centre o a b c : vol a b c o = - trip o a b c.
Proof. unfold trip. vols. ring. Qed.
Lemma vol_pull o al be ga xi a b c x : vol (mix al a o) (mix be b o) (mix ga c o) (mix xi x o) =
  (1 - xi) * ((1 - be) * (1 - ga) * trip o b c x - (1 - al) * (1 - ga) * trip o a c x + (1 - al) * (1 - be) * trip o a b x - (1 - al) * (1 - be) * (1 - ga) * trip o a b c)
  - xi * ((1 - al) * (1 - be) * (1 - ga)) * trip o a b c.
Proof. unfold trip, mix. vols. ring. Qed.
Lemma near_one h x y z : 0 <= x <= h -> 0 <= y <= h -> 0 <= z <= h -> h <= 1 -> 0 <= 1 - (1 - x) * (1 - y) * (1 - z) <= 3 * h.
Proof.
  intros X Y Z H. assert (0 <= (1 - x) * (1 - y) <= 1 /\ 1 - 2 * h <= (1 - x) * (1 - y)) as [A B] by nra. assert (0 <= (1 - x) * (1 - y) * (1 - z) <= 1) by nra.
  assert ((1 - x) * (1 - y) * z <= h) by nra. lra.
Qed.
Lemma term_near B h w t : 0 <= 1 - w <= 3 * h -> Rabs t <= B -> Rabs (w * t - t) <= 3 * h * B.
Proof.
  intros W T. replace (w * t - t) with (- ((1 - w) * t)) by ring. rewrite Rabs_Ropp, Rabs_mult, (Rabs_pos_eq (1 - w)) by lra. apply Rmult_le_compat; try lra. apply Rabs_pos.
Qed.

Section Pull.
Variables (pts : list v3r) (k : Z) (M : R).
Let n := length pts.
Let P := pt pts.
Hypothesis Kp : (0 < k)%Z.
Hypothesis M1 : 1 <= M.
Hypothesis OG : forall p, In p pts -> on_grid k M p.
Variables (a b c d : nat).
Hypothesis Ba : (a < n)%nat.
Hypothesis Bb : (b < n)%nat.
Hypothesis Bc : (c < n)%nat.
Hypothesis Bd : (d < n)%nat.
Let cen := middle pts a b c d.
Let K := IZR k.
Lemma KG1 : 1 <= K. Proof. apply IZR_le. lia. Qed.
Lemma cen_diff i : (i < n)%nat -> coord3 (fun x => mult (4 * K) x /\ Rabs x <= 2 * M) (rvsub (P i) cen).
Proof.
  intros Bi. destruct (sub_small pts k M Kp OG i a Bi Ba) as ([A1 A2] & [A3 A4] & [A5 A6]). destruct (sub_small pts k M Kp OG i b Bi Bb) as ([B1 B2] & [B3 B4] & [B5 B6]).
  destruct (sub_small pts k M Kp OG i c Bi Bc) as ([C1 C2] & [C3 C4] & [C5 C6]). destruct (sub_small pts k M Kp OG i d Bi Bd) as ([D1 D2] & [D3 D4] & [D5 D6]).
  unfold rvsub in A1, A2, A3, A4, A5, A6, B1, B2, B3, B4, B5, B6, C1, C2, C3, C4, C5, C6, D1, D2, D3, D4, D5, D6. cbn [rx ry rz] in *.
  assert (forall f : v3r -> R, mult K (f (P i) - f (P a)) /\ Rabs (f (P i) - f (P a)) <= 2 * M -> mult K (f (P i) - f (P b)) /\ Rabs (f (P i) - f (P b)) <= 2 * M ->
    mult K (f (P i) - f (P c)) /\ Rabs (f (P i) - f (P c)) <= 2 * M -> mult K (f (P i) - f (P d)) /\ Rabs (f (P i) - f (P d)) <= 2 * M ->
    mult (4 * K) (f (P i) - (f (P a) + f (P b) + f (P c) + f (P d)) / 4) /\ Rabs (f (P i) - (f (P a) + f (P b) + f (P c) + f (P d)) / 4) <= 2 * M) as G.
  { intros f [[za Ea] Qa] [[zb Eb] Qb] [[zc Ec] Qc] [[zd Ed] Qd]. split.
    - exists (za + zb + zc + zd)%Z. rewrite !plus_IZR, <- Ea, <- Eb, <- Ec, <- Ed. field.
    - replace (f (P i) - (f (P a) + f (P b) + f (P c) + f (P d)) / 4) with (/ 4 * ((f (P i) - f (P a)) + (f (P i) - f (P b)) + (f (P i) - f (P c)) + (f (P i) - f (P d)))) by field.
      rewrite Rabs_mult, Rabs_pos_eq by lra. pose proof (Rabs_triang (f (P i) - f (P a) + (f (P i) - f (P b)) + (f (P i) - f (P c))) (f (P i) - f (P d))). pose proof (Rabs_triang (f (P i) - f (P a) + (f (P i) - f (P b))) (f (P i) - f (P c))).
      pose proof (Rabs_triang (f (P i) - f (P a)) (f (P i) - f (P b))). lra. }
  unfold coord3, rvsub, cen, middle. fold P. cbn [rx ry rz]. split; [|split]; [apply (G rx)|apply (G ry)|apply (G rz)]; split; assumption.
Qed.
Lemma trip_bound i j h : (i < n)%nat -> (j < n)%nat -> (h < n)%nat -> Rabs (trip cen (P i) (P j) (P h)) <= 48 * M ^ 3.
Proof.
  intros Bi Bj Bh. destruct (cen_diff i Bi) as ([_ A1] & [_ A2] & [_ A3]). destruct (cen_diff j Bj) as ([_ B1] & [_ B2] & [_ B3]). destruct (cen_diff h Bh) as ([_ C1] & [_ C2] & [_ C3]).
  unfold trip, rvdot, rvcross. cbn [rx ry rz]. set (u := rvsub (P i) cen) in *. set (v := rvsub (P j) cen) in *. set (w := rvsub (P h) cen) in *.
  assert (forall x y z t s, Rabs x <= 2 * M -> Rabs y <= 2 * M -> Rabs z <= 2 * M -> Rabs t <= 2 * M -> Rabs s <= 2 * M -> Rabs ((x * y - z * t) * s) <= 16 * M ^ 3) as G.
  { intros x y z t s X Y Z T S0. rewrite Rabs_mult. assert (Rabs (x * y - z * t) <= 8 * M ^ 2) as Q.
    { unfold Rminus. eapply Rle_trans; [apply Rabs_triang|]. rewrite Rabs_Ropp, !Rabs_mult. assert (Rabs x * Rabs y <= (2 * M) * (2 * M)) by (apply Rmult_le_compat; auto using Rabs_pos). assert (Rabs z * Rabs t <= (2 * M) * (2 * M)) by (apply Rmult_le_compat; auto using Rabs_pos). lra. }
    replace (16 * M ^ 3) with (8 * M ^ 2 * (2 * M)) by ring. apply Rmult_le_compat; auto using Rabs_pos. }
  pose proof (G _ _ _ _ _ A2 B3 A3 B2 C1). pose proof (G _ _ _ _ _ A3 B1 A1 B3 C2). pose proof (G _ _ _ _ _ A1 B2 A2 B1 C3).
  eapply Rle_trans; [apply Rabs_triang|]. match goal with |- Rabs (?s + ?t) + _ <= _ => pose proof (Rabs_triang s t) end. lra.
Qed.
Lemma centre_gap t : facet_ok pts cen t -> 1 <= trip cen (P (t0 t)) (P (t1 t)) (P (t2 t)) * (4 * K ^ 3).
Proof.
  intros [[Bt _] V]. pose proof (Bt I0) as B0. pose proof (Bt I1) as B1. pose proof (Bt I2) as B2. cbn [tget] in B0, B1, B2. fold P in V. fold n in B0, B1, B2.
  assert (mult (4 * K ^ 3) (VT P t cen)) as MV.
  { unfold VT, vol. destruct (sub_small pts k M Kp OG _ _ B1 B0) as ([U1 _] & [U2 _] & [U3 _]). destruct (sub_small pts k M Kp OG _ _ B2 B0) as ([W1 _] & [W2 _] & [W3 _]). destruct (cen_diff _ B0) as ([D1 _] & [D2 _] & [D3 _]).
    unfold rvdot, rvcross. cbn [rx ry rz]. replace (4 * K ^ 3) with ((K * K) * (4 * K)) by ring.
    assert (forall z, mult (4 * K) z -> mult (4 * K) (- z)) as NG by (intros z [y E]; exists (- y)%Z; rewrite opp_IZR, <- E; ring).
    assert (mult (4 * K) (rx (rvsub cen (P (t0 t)))) /\ mult (4 * K) (ry (rvsub cen (P (t0 t)))) /\ mult (4 * K) (rz (rvsub cen (P (t0 t))))) as (E1 & E2 & E3).
    { split; [|split]; [replace (rx (rvsub cen (P (t0 t)))) with (- rx (rvsub (P (t0 t)) cen)) by (unfold rvsub; cbn; ring)|replace (ry (rvsub cen (P (t0 t)))) with (- ry (rvsub (P (t0 t)) cen)) by (unfold rvsub; cbn; ring)|replace (rz (rvsub cen (P (t0 t)))) with (- rz (rvsub (P (t0 t)) cen)) by (unfold rvsub; cbn; ring)]; apply NG; assumption. }
    repeat apply mult_add; apply mult_mul; try assumption; apply mult_sub; apply mult_mul; assumption. }
  pose proof KG1 as KG. assert (0 < K ^ 3) as PK by (apply pow_lt; lra).
  pose proof (mult_gap (4 * K ^ 3) (VT P t cen) ltac:(lra) MV ltac:(lra)) as G. unfold VT in *. rewrite vol_centre in G, V. rewrite Rabs_left in G by lra. rewrite Ropp_involutive in G. exact G.
Qed.

Variable top : nat.
Definition step : R := 32768 * M ^ 3 * K ^ 3.
Definition level (j : nat) : R := step ^ j / step ^ S top.
Lemma step_big : 32768 <= step.
Proof.
  pose proof KG1. assert (1 <= M ^ 3) by (replace 1 with (1 ^ 3) by ring; apply pow_incr; lra). assert (1 <= K ^ 3) by (replace 1 with (1 ^ 3) by ring; apply pow_incr; lra). unfold step. assert (1 <= M ^ 3 * K ^ 3) by nra. lra.
Qed.
Lemma level_pos j : 0 < level j.
Proof. pose proof step_big. unfold level. apply Rmult_lt_0_compat; [|apply Rinv_0_lt_compat]; apply pow_lt; lra. Qed.
Lemma level_S j : level (S j) = step * level j.
Proof. unfold level. cbn [pow]. unfold Rdiv. ring. Qed.
Lemma level_top j : (j <= top)%nat -> level j * step <= 1.
Proof.
  intros J. pose proof step_big as B. assert (level top * step = 1) as E by (unfold level; cbn [pow]; field; split; [apply pow_nonzero; lra|lra]).
  assert (level j <= level top); [|nra]. unfold level. apply Rmult_le_compat_r; [apply Rlt_le, Rinv_0_lt_compat, pow_lt; lra|]. apply Rle_pow; [lra|exact J].
Qed.
Lemma level_small j : (j <= top)%nat -> 0 <= level j < 1.
Proof. intros J. pose proof (level_pos j). pose proof (level_top j J). pose proof step_big. nra. Qed.
Lemma level_le j : (S j <= top)%nat -> level j <= level (S j).
Proof. intros _. rewrite level_S. pose proof (level_pos j). pose proof step_big. nra. Qed.

(** moving the three vertices and the point by at most [h] *)
Lemma drift h al be ga t x : good_tri n t -> (x < n)%nat -> 0 <= al <= h -> 0 <= be <= h -> 0 <= ga <= h -> h <= 1 ->
  let T p q r := trip cen (P p) (P q) (P r) in
  Rabs ((1 - be) * (1 - ga) * T (t1 t) (t2 t) x - (1 - al) * (1 - ga) * T (t0 t) (t2 t) x + (1 - al) * (1 - be) * T (t0 t) (t1 t) x - (1 - al) * (1 - be) * (1 - ga) * T (t0 t) (t1 t) (t2 t) - VT P t (P x)) <= 576 * M ^ 3 * h.
Proof.
  intros [Bt _] Bx A B C H T. pose proof (Bt I0) as B0. pose proof (Bt I1) as B1. pose proof (Bt I2) as B2. cbn [tget] in B0, B1, B2.
  unfold VT. rewrite (vol_trip cen). fold (T (t1 t) (t2 t) x) (T (t0 t) (t2 t) x) (T (t0 t) (t1 t) x) (T (t0 t) (t1 t) (t2 t)).
  assert (forall p q r, (p < n)%nat -> (q < n)%nat -> (r < n)%nat -> Rabs (T p q r) <= 48 * M ^ 3) as BT by (intros; apply trip_bound; assumption).
  assert (0 <= 0 <= h) as Z by lra.
  pose proof (near_one h be ga 0 B C Z H) as W1. pose proof (near_one h al ga 0 A C Z H) as W2. pose proof (near_one h al be 0 A B Z H) as W3. pose proof (near_one h al be ga A B C H) as W4.
  pose proof (term_near _ h _ _ W1 (BT _ _ _ B1 B2 Bx)) as E1. pose proof (term_near _ h _ _ W2 (BT _ _ _ B0 B2 Bx)) as E2. pose proof (term_near _ h _ _ W3 (BT _ _ _ B0 B1 Bx)) as E3. pose proof (term_near _ h _ _ W4 (BT _ _ _ B0 B1 B2)) as E4.
  match type of E1 with Rabs ?e <= _ => set (e1 := e) in * end. match type of E2 with Rabs ?e <= _ => set (e2 := e) in * end. match type of E3 with Rabs ?e <= _ => set (e3 := e) in * end. match type of E4 with Rabs ?e <= _ => set (e4 := e) in * end.
  match goal with |- Rabs ?e <= _ => replace e with (e1 - e2 + e3 - e4) by (unfold e1, e2, e3, e4; ring) end.
  pose proof (Rabs_triang (e1 - e2 + e3) (- e4)). pose proof (Rabs_triang (e1 - e2) e3). pose proof (Rabs_triang e1 (- e2)). rewrite Rabs_Ropp in *. unfold Rminus in *. lra.
Qed.
Lemma VT_pulled dl t xi x : VT (pull pts cen dl) t (mix xi (P x) cen) =
  (1 - xi) * ((1 - dl (t1 t)) * (1 - dl (t2 t)) * trip cen (P (t1 t)) (P (t2 t)) (P x) - (1 - dl (t0 t)) * (1 - dl (t2 t)) * trip cen (P (t0 t)) (P (t2 t)) (P x) + (1 - dl (t0 t)) * (1 - dl (t1 t)) * trip cen (P (t0 t)) (P (t1 t)) (P x) - (1 - dl (t0 t)) * (1 - dl (t1 t)) * (1 - dl (t2 t)) * trip cen (P (t0 t)) (P (t1 t)) (P (t2 t)))
  - xi * ((1 - dl (t0 t)) * (1 - dl (t1 t)) * (1 - dl (t2 t))) * trip cen (P (t0 t)) (P (t1 t)) (P (t2 t)).
Proof. unfold VT, pull. fold P. apply vol_pull. Qed.
Lemma pull_pos j dl t x e : (j <= top)%nat -> facet_ok pts cen t -> (forall v, 0 <= dl (tget v t) <= level j) -> (x < n)%nat -> 0 <= e <= level j ->
  0 < VT P t (P x) -> 0 < VT (pull pts cen dl) t (mix e (P x) cen).
Proof.
  intros J F B Bx E V. pose proof F as [G VC]. pose proof (level_small j J) as LS. pose proof (level_top j J) as LT. pose proof (level_pos j) as LP.
  pose proof (B I0) as B0. pose proof (B I1) as B1. pose proof (B I2) as B2. cbn [tget] in B0, B1, B2.
  pose proof (drift (level j) _ _ _ t x G Bx B0 B1 B2 ltac:(lra)) as D. cbn zeta in D. rewrite VT_pulled.
  match type of D with Rabs (?e - _) <= _ => set (F0 := e) in * end.
  pose proof KG1 as KG. assert (0 < K ^ 3) as PK by (apply pow_lt; lra). assert (0 < M ^ 3) as PM by (apply pow_lt; lra).
  assert (1 <= VT P t (P x) * K ^ 3) as GA.
  { rewrite <- (Rabs_pos_eq (VT P t (P x))) by lra. destruct G as [Bt _]. apply mult_gap; [exact PK|apply (vol_mult pts k M Kp OG); [apply (Bt I0)|apply (Bt I1)|apply (Bt I2)|exact Bx]|lra]. }
  assert (576 * M ^ 3 * level j * (56 * K ^ 3) <= 1) as SM. { unfold step in LT. nra. }
  assert (VT P t (P x) - F0 <= 576 * M ^ 3 * level j) as DF by (rewrite <- Rabs_Ropp in D; pose proof (Rle_abs (- (F0 - VT P t (P x)))); lra).
  pose proof (trip_bound (t0 t) (t1 t) (t2 t) ltac:(apply (proj1 G I0)) ltac:(apply (proj1 G I1)) ltac:(apply (proj1 G I2))) as TB.
  set (T := trip cen (P (t0 t)) (P (t1 t)) (P (t2 t))) in *. set (W := (1 - dl (t0 t)) * (1 - dl (t1 t)) * (1 - dl (t2 t))) in *.
  assert (0 <= 1 - W <= 3 * level j) as WB by (apply near_one; try assumption; lra).
  assert (level j <= 1 / 32768) as L3 by (pose proof step_big; nra).
  assert (T <= 48 * M ^ 3) as TU by (pose proof (Rle_abs T); lra).
  assert (W * T <= 48 * M ^ 3) as WT by nra. assert (e * (W * T) <= level j * (48 * M ^ 3)) as ET by nra.
  assert (55 / 56 <= F0 * K ^ 3) as FK by nra. assert (0 < F0) as PF by nra.
  assert (1 / 2 * F0 <= (1 - e) * F0) as HF by nra. assert (level j * (48 * M ^ 3) * K ^ 3 <= 1 / 56) as SK by nra. nra.
Qed.
Lemma pull_neg j dl t x : (S j <= top)%nat -> facet_ok pts cen t -> (forall v, 0 <= dl (tget v t) <= level j) -> (x < n)%nat ->
  VT P t (P x) <= 0 -> VT (pull pts cen dl) t (mix (level (S j)) (P x) cen) < 0.
Proof.
  intros J F B Bx V. pose proof F as [G VC]. pose proof (level_small (S j) J) as LS. assert (j <= top)%nat as J' by lia. pose proof (level_small j J') as LS0. pose proof (level_top j J') as LT. pose proof (level_pos j) as LP.
  pose proof (B I0) as B0. pose proof (B I1) as B1. pose proof (B I2) as B2. cbn [tget] in B0, B1, B2.
  pose proof (drift (level j) _ _ _ t x G Bx B0 B1 B2 ltac:(lra)) as D. cbn zeta in D. rewrite VT_pulled.
  match type of D with Rabs (?e - _) <= _ => set (F0 := e) in * end.
  pose proof KG1 as KG. assert (0 < K ^ 3) as PK by (apply pow_lt; lra). assert (0 < M ^ 3) as PM by (apply pow_lt; lra).
  pose proof (centre_gap t F) as GC. set (T := trip cen (P (t0 t)) (P (t1 t)) (P (t2 t))) in *. set (W := (1 - dl (t0 t)) * (1 - dl (t1 t)) * (1 - dl (t2 t))) in *.
  assert (0 <= 1 - W <= 3 * level j) as WB by (apply near_one; try assumption; lra).
  assert (level j <= 1 / 32768) as L3 by (pose proof step_big; nra).
  assert (F0 <= 576 * M ^ 3 * level j) as DF by (pose proof (Rle_abs (F0 - VT P t (P x))); lra).
  assert (0 < T) as PT by nra. rewrite level_S in *. set (lj := level j) in *. set (l1 := step * lj) in *.
  assert ((1 - l1) * F0 <= 576 * M ^ 3 * lj) as X by (destruct (Rle_dec F0 0); nra).
  assert (l1 * W * T * (8 * K ^ 3) >= l1) as Y. { assert (1 / 2 <= W) by lra. assert (1 / 2 * T <= W * T) by nra. assert (1 <= W * T * (8 * K ^ 3)) by nra. assert (0 <= l1) by lra. nra. }
  assert (l1 = 32768 * M ^ 3 * K ^ 3 * lj) as EL by (unfold l1, step; ring).
  assert (4096 * M ^ 3 * lj <= l1 * W * T) as Z. { apply (Rmult_le_reg_r (8 * K ^ 3)); [lra|]. replace (4096 * M ^ 3 * lj * (8 * K ^ 3)) with l1 by (rewrite EL; ring). lra. }
  assert (0 < M ^ 3 * lj) by (apply Rmult_lt_0_compat; assumption). lra.
Qed.
End Pull.
