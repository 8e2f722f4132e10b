(** The four points of the first simplex: get_affine_basis finds them. *)
From Coq Require Import List Arith Bool Reals Lra Lia ZArith Permutation.
From Verif Require Import Base LoopFacts ModelPlane ModelQuickhull SpecQuickhull ProofQhGeo ProofQhMesh ProofQhRidge ProofQhWalk ProofQhStep ProofQhDet.
Import ListNotations.
Local Open Scope R_scope.

Definition l3 (x y z : R) : list R := [x; y; z].
Lemma sumsq_zero a b c : a * a + b * b + c * c <= 0 -> a = 0 /\ b = 0 /\ c = 0.
Proof.
  intros X. pose proof (Rle_0_sqr a). pose proof (Rle_0_sqr b). pose proof (Rle_0_sqr c). unfold Rsqr in *. repeat split; apply Rsqr_0_uniq; unfold Rsqr; lra.
Qed.

(** one reflection *)
Definition refl (a b c N v0 v1 v2 : R) : Prop :=
  N * N = a * a + b * b + c * c /\ N <> 0 /\ v0 * v0 + v1 * v1 + v2 * v2 = 2 /\ 1 - v0 * v0 = - a / N /\ - (v1 * v0) = - b / N /\ - (v2 * v0) = - c / N.
Lemma sqrt_gt x e : 0 <= e -> e < sqrt x -> 0 < x.
Proof. intros E X. destruct (Rle_lt_dec x 0) as [Y|Y]; [|exact Y]. rewrite sqrt_neg_0 in X by exact Y. lra. Qed.
Lemma reflection eps a sum : 0 <= eps -> eps < sqrt sum -> a * a <= sum ->
  let norm := if Rlt_dec a 0 then - sqrt sum else sqrt sum in
  norm * norm = sum /\ norm <> 0 /\ 0 <= a * norm /\ eps < sqrt (sum + a * norm).
Proof.
  intros E X A norm. pose proof (sqrt_gt _ _ E X) as PS. pose proof (sqrt_sqrt sum (Rlt_le _ _ PS)) as SS. pose proof (sqrt_lt_R0 _ PS) as PQ.
  assert (norm * norm = sum) as NN by (unfold norm; destruct (Rlt_dec a 0); [rewrite <- SS at 3; ring|exact SS]).
  assert (0 <= a * norm) as AN.
  { unfold norm. destruct (Rlt_dec a 0) as [Y|Y]; [replace (a * - sqrt sum) with ((- a) * sqrt sum) by ring|]; apply Rmult_le_pos; lra. }
  split; [exact NN|]. split; [unfold norm; destruct (Rlt_dec a 0); lra|]. split; [exact AN|].
  eapply Rlt_le_trans; [exact X|]. apply sqrt_le_1_alt. lra.
Qed.
Lemma refl_of a b c N : N * N = a * a + b * b + c * c -> N <> 0 -> 0 <= a * N ->
  let F := sqrt (a * a + b * b + c * c + a * N) in refl a b c N ((a + N) / F) (b / F) (c / F).
Proof.
  intros E NZ A F. assert (0 < N * N) as PN by (pose proof (Rlt_0_sqr N NZ) as X; exact X).
  assert (F * F = N * (N + a)) as FF by (unfold F; rewrite sqrt_sqrt by lra; rewrite <- E; ring).
  assert (F <> 0) as FZ by (intros X; rewrite X in FF; nra). assert (N + a <> 0) as AZ by (intros X; rewrite X in FF; apply FZ; apply Rsqr_0_uniq; unfold Rsqr; rewrite FF; ring).
  assert (forall x y, x / F * (y / F) = x * y / (N * (N + a))) as Q by (intros x y; rewrite <- FF; field; exact FZ).
  unfold refl. rewrite !Q. repeat split; try assumption.
  - replace ((a + N) * (a + N) / (N * (N + a)) + b * b / (N * (N + a)) + c * c / (N * (N + a))) with (((a * a + b * b + c * c) + N * N + 2 * a * N) / (N * (N + a))) by (field; auto). rewrite <- E. field. auto.
  - field. auto.
  - field. auto.
  - field. auto.
Qed.
Lemma householder_1 eps a b c : 0 <= eps -> eps < sqrt (0 + a * a + b * b + c * c) ->
  exists N v0 v1 v2, refl a b c N v0 v1 v2 /\ forall m rest, householder eps 0 (S m) ([a; b; c] :: rest) = option_map (cons [v0; v1; v2]) (householder eps 1 m (map (fun r => sub_from 0 [v0; v1; v2] (dot_from 0 [v0; v1; v2] r) r) rest)).
Proof.
  intros E X. set (sum := 0 + a * a + b * b + c * c) in *.
  assert (a * a <= sum) as LE by (pose proof (Rle_0_sqr b); pose proof (Rle_0_sqr c); unfold Rsqr, sum in *; lra).
  pose proof (reflection eps a sum E X LE) as (NN & NZ & AN & FX). set (norm := if Rlt_dec a 0 then - sqrt sum else sqrt sum) in *.
  assert (sum = a * a + b * b + c * c) as ES by (unfold sum; ring).
  exists norm, ((a + norm) / sqrt (sum + a * norm)), (b / sqrt (sum + a * norm)), (c / sqrt (sum + a * norm)). split.
  - rewrite ES. apply refl_of; [rewrite NN; exact ES|exact NZ|exact AN].
  - intros m rest. cbn [householder]. change (dot_from 0 [a; b; c] [a; b; c]) with sum. destruct (Rlt_dec eps (sqrt sum)) as [_|Y]; [|contradiction].
    cbn [nth]. fold norm. destruct (Rlt_dec eps (sqrt (sum + a * norm))) as [_|Y]; [|contradiction]. cbn [firstn skipn app map]. reflexivity.
Qed.
Lemma refl_dot a b c N v0 v1 v2 d e f : refl a b c N v0 v1 v2 ->
  let s := v0 * d + v1 * e + v2 * f in d - v0 * s = - (a * d + b * e + c * f) / N.
Proof.
  intros (_ & NZ & _ & E0 & E1 & E2) s. unfold s. replace (d - v0 * (v0 * d + v1 * e + v2 * f)) with (d * (1 - v0 * v0) + e * - (v1 * v0) + f * - (v2 * v0)) by ring. rewrite E0, E1, E2. field. exact NZ.
Qed.
Lemma refl_twice v0 v1 v2 d e f x : v0 * v0 + v1 * v1 + v2 * v2 = 2 ->
  let s := v0 * d + v1 * e + v2 * f in
  v0 * (d - v0 * s) + v1 * (e - v1 * s) + v2 * (f - v2 * s) = - s /\ x = x - s * x + s * x.
Proof. intros V s. split; [|ring]. transitivity (s - (v0 * v0 + v1 * v1 + v2 * v2) * s); [unfold s; ring|rewrite V; ring]. Qed.
Lemma refl_norm v0 v1 v2 d e f : v0 * v0 + v1 * v1 + v2 * v2 = 2 ->
  let s := v0 * d + v1 * e + v2 * f in
  (d - v0 * s) * (d - v0 * s) + (e - v1 * s) * (e - v1 * s) + (f - v2 * s) * (f - v2 * s) = d * d + e * e + f * f.
Proof. intros V s. transitivity (d * d + e * e + f * f - 2 * s * s + (v0 * v0 + v1 * v1 + v2 * v2) * s * s); [unfold s; ring|rewrite V; ring]. Qed.

Definition span1 (u q : list R) : Prop := exists x, q = map (Rmult x) u.
Lemma basis_1 eps a b c : 0 <= eps -> eps < sqrt (0 + a * a + b * b + c * c) ->
  exists v x, householder eps 0 1 [[a; b; c]] = Some [v] /\ transform 0 [v] (unit_row 0) = [x * a; x * b; x * c] /\ x * x * (a * a + b * b + c * c) = 1.
Proof.
  intros E X. destruct (householder_1 eps a b c E X) as (N & v0 & v1 & v2 & R & H). destruct R as (NN & NZ & _ & E0 & E1 & E2).
  exists [v0; v1; v2], (- / N). split; [rewrite H; reflexivity|]. split; [|rewrite <- NN; field; exact NZ]. cbn.
  f_equal; [|f_equal; [|f_equal]]; [transitivity (1 - v0 * v0); [ring|]|transitivity (- (v1 * v0)); [ring|]|transitivity (- (v2 * v0)); [ring|]]; rewrite ?E0, ?E1, ?E2; field; exact NZ.
Qed.
Lemma basis_2 eps a b c d e f : 0 <= eps -> eps < sqrt (0 + a * a + b * b + c * c) ->
  (forall N2, N2 = a * a + b * b + c * c -> eps < sqrt (((b * f - c * e) * (b * f - c * e) + (c * d - a * f) * (c * d - a * f) + (a * e - b * d) * (a * e - b * d)) / N2)) ->
  exists v w x y z, householder eps 0 2 [[a; b; c]; [d; e; f]] = Some [v; w] /\
    transform 0 [v; w] (unit_row 0) = [x * a; x * b; x * c] /\ transform 0 [v; w] (unit_row 1) = [y * a + z * d; y * b + z * e; y * c + z * f].
Proof.
  intros E X Y. destruct (householder_1 eps a b c E X) as (N & v0 & v1 & v2 & R & H).
  pose proof (refl_dot _ _ _ _ _ _ _ d e f R) as RD. destruct R as (NN & NZ & V & E0 & E1 & E2).
  pose proof (refl_norm v0 v1 v2 d e f V) as RN. destruct (refl_twice v0 v1 v2 d e f 0 V) as [RT _]. cbn zeta in RD, RN, RT.
  set (s := v0 * d + v1 * e + v2 * f) in *. set (r0 := d - v0 * s) in *. set (r1 := e - v1 * s) in *. set (r2 := f - v2 * s) in *.
  assert (r1 * r1 + r2 * r2 = ((b * f - c * e) * (b * f - c * e) + (c * d - a * f) * (c * d - a * f) + (a * e - b * d) * (a * e - b * d)) / (N * N)) as S1.
  { replace (r1 * r1 + r2 * r2) with (d * d + e * e + f * f - r0 * r0) by lra. rewrite RD.
    replace (d * d + e * e + f * f - - (a * d + b * e + c * f) / N * (- (a * d + b * e + c * f) / N)) with (((d * d + e * e + f * f) * (N * N) - (a * d + b * e + c * f) * (a * d + b * e + c * f)) / (N * N)) by (field; exact NZ).
    f_equal. rewrite NN. ring. }
  specialize (Y _ NN). rewrite <- S1 in Y. set (sum := r1 * r1 + r2 * r2) in *.
  assert (r1 * r1 <= sum) as LE by (pose proof (Rle_0_sqr r2); unfold Rsqr, sum in *; lra).
  pose proof (reflection eps r1 sum E Y LE) as (MM & MZ & AM & FX). set (norm := if Rlt_dec r1 0 then - sqrt sum else sqrt sum) in *.
  set (F := sqrt (sum + r1 * norm)) in *.
  assert (norm * norm = r1 * r1 + r2 * r2 + 0 * 0) as M0 by (rewrite MM; unfold sum; ring).
  pose proof (refl_of r1 r2 0 norm M0 MZ AM) as RF. cbn zeta in RF. replace (r1 * r1 + r2 * r2 + 0 * 0 + r1 * norm) with (sum + r1 * norm) in RF by (unfold sum; ring). fold F in RF.
  destruct RF as (_ & _ & _ & F0 & F1 & _).
  exists [v0; v1; v2], [r0; (r1 + norm) / F; r2 / F], (- / N), (- (r0 / N) / norm), (- / norm). split; [|split].
  - rewrite H. cbn [map].
    replace (sub_from 0 [v0; v1; v2] (dot_from 0 [v0; v1; v2] [d; e; f]) [d; e; f]) with [r0; r1; r2].
    2:{ cbn. fold s. unfold r0, r1, r2, s. f_equal; [ring|f_equal; [ring|f_equal; ring]]. }
    cbn [householder]. replace (dot_from 1 [r0; r1; r2] [r0; r1; r2]) with sum by (cbn; unfold sum; ring). destruct (Rlt_dec eps (sqrt sum)) as [_|Q]; [|contradiction].
    cbn [nth]. fold norm. fold F. destruct (Rlt_dec eps F) as [_|Q]; [|contradiction]. reflexivity.
  - cbn. f_equal; [|f_equal; [|f_equal]]; [transitivity (1 - v0 * v0); [ring|]|transitivity (- (v1 * v0)); [ring|]|transitivity (- (v2 * v0)); [ring|]]; rewrite ?E0, ?E1, ?E2; field; exact NZ.
  - set (g := (r1 + norm) / F) in *. set (h := r2 / F) in *. cbn.
    set (y1 := 1 - g * (0 + g * 1 + h * 0)). set (y2 := 0 - h * (0 + g * 1 + h * 0)).
    assert (y1 = - r1 / norm) as Y1 by (unfold y1; rewrite <- F0; ring). assert (y2 = - r2 / norm) as Y2 by (unfold y2; rewrite <- F1; ring).
    (* the reflection of (0, y1, y2) *)
    assert (forall vi ri wi ui i0, ri = wi - vi * s -> i0 - vi * v0 = - ui / N ->
      (- (/ norm)) * (ri - r0 * i0) - vi * (0 + v0 * 0 + v1 * y1 + v2 * y2) = - (r0 / N) / norm * ui + - / norm * wi) as G.
    { intros vi ri wi ui i0 A1 A2. assert (v1 * y1 + v2 * y2 = - / norm * (- s - v0 * r0)) as A3.
      { rewrite Y1, Y2. replace (- s) with (v0 * r0 + v1 * r1 + v2 * r2) by exact RT. field. exact MZ. }
      replace (0 + v0 * 0 + v1 * y1 + v2 * y2) with (v1 * y1 + v2 * y2) by ring. rewrite A3, A1.
      transitivity (- / norm * wi + / norm * r0 * (i0 - vi * v0)); [ring|]. rewrite A2. field. auto. }
    f_equal; [|f_equal; [|f_equal]].
    + rewrite <- (G v0 r0 d a 1); [|reflexivity|rewrite <- E0; ring]. f_equal. field. exact MZ.
    + rewrite <- (G v1 r1 e b 0); [|reflexivity|rewrite <- E1; ring]. f_equal. change (0 + g * 1 + h * 0) with (0 + g * 1 + h * 0). fold y1. rewrite Y1. field. exact MZ.
    + rewrite <- (G v2 r2 f c 0); [|reflexivity|rewrite <- E2; ring]. f_equal. fold y2. rewrite Y2. field. exact MZ.
Qed.

(** the furthest point *)
Lemma furthest_some pts origin qs : forall l pos dist best, (forall i, In i l -> (i < length pts)%nat) ->
  exists b, furthest pts origin qs l pos dist best = Ok b /\ (b = best \/ exists j, (j < length l)%nat /\ b = Some (pos + j)%nat).
Proof.
  induction l as [|i l IH]; intros pos dist best B; cbn [furthest]; [exists best; auto|].
  rewrite (get_ok pts i (RV 0 0 0)) by (apply B; left; reflexivity). cbn [bind].
  destruct (Rlt_dec dist _) as [X|X].
  - match goal with |- exists b, furthest _ _ _ _ _ ?d ?bb = _ /\ _ => destruct (IH (S pos) d bb (fun k Q => B k (or_intror Q))) as (b & E & D) end.
    exists b. split; [exact E|right]. destruct D as [D|(j & D1 & D2)]; [exists 0%nat; rewrite Nat.add_0_r; cbn; split; [lia|exact D]|exists (S j); cbn; rewrite Nat.add_succ_r; split; [lia|exact D2]].
  - destruct (IH (S pos) dist best (fun k Q => B k (or_intror Q))) as (b & E & D). exists b. split; [exact E|].
    destruct D as [D|(j & D1 & D2)]; [left; exact D|right; exists (S j); cbn; rewrite Nat.add_succ_r; split; [lia|exact D2]].
Qed.
Lemma take_at {A} (d : A) : forall l j, (j < length l)%nat -> Permutation l (nth j l d :: firstn j l ++ skipn (S j) l).
Proof.
  induction l as [|x l IH]; intros j B; cbn in B; [lia|]. destruct j; cbn; [apply Permutation_refl|].
  eapply perm_trans; [apply perm_skip, (IH j); lia|apply perm_swap].
Qed.

Section Basis.
Variables (eps : R) (pts : list v3r) (k : Z) (M : R).
Let n := length pts.
Let P := pt pts.
Hypothesis Eps : 0 <= eps.
Hypothesis Kp : (0 < k)%Z.
Hypothesis M0 : 0 < M.
Hypothesis EK1 : eps * IZR k < 1.
Hypothesis EK2 : eps * (4 * M * IZR k ^ 2) < 1.
Hypothesis OG : forall p, In p pts -> on_grid k M p.
Let K := IZR k.
Lemma KG : 1 <= K. Proof. apply IZR_le. lia. Qed.
Lemma eK1 : eps * K < 1. Proof. exact EK1. Qed.
Lemma eK2 : eps * (4 * M * K ^ 2) < 1. Proof. exact EK2. Qed.
Lemma big_sqrt D x : 0 < D -> 0 <= x -> 1 <= x * (D * D) -> eps * D < 1 -> eps < sqrt x.
Proof.
  intros PD PX G ED. apply (Rmult_lt_reg_r D); [exact PD|]. eapply Rlt_le_trans; [exact ED|].
  rewrite <- (sqrt_square D) by lra. rewrite <- sqrt_mult by nra. rewrite <- sqrt_1. apply sqrt_le_1_alt. exact G.
Qed.
Lemma sq_gap D x : 0 < D -> mult D x -> x <> 0 -> 1 <= x * x * (D * D).
Proof. intros PD MX NX. pose proof (mult_gap D x PD MX NX) as G. replace (x * x * (D * D)) with (Rabs x * D * (Rabs x * D)) by (replace (x * x) with (Rabs x * Rabs x) by (rewrite <- Rabs_mult; apply Rabs_pos_eq; pose proof (Rle_0_sqr x); unfold Rsqr in *; lra); ring). nra. Qed.
Lemma sum_gap D x y z : 0 < D -> mult D x -> mult D y -> mult D z -> ~ (x = 0 /\ y = 0 /\ z = 0) -> 1 <= (x * x + y * y + z * z) * (D * D).
Proof.
  intros PD MX MY MZ N. assert (0 < D * D) as DD by (apply Rmult_lt_0_compat; assumption).
  pose proof (Rle_0_sqr x) as X0. pose proof (Rle_0_sqr y) as Y0. pose proof (Rle_0_sqr z) as Z0. unfold Rsqr in *.
  assert (forall s, 0 <= s -> 0 <= s * (D * D)) as PS by (intros s S0; apply Rmult_le_pos; lra). pose proof (PS _ X0). pose proof (PS _ Y0). pose proof (PS _ Z0).
  destruct (Req_dec x 0) as [EX|NX]; [destruct (Req_dec y 0) as [EY|NY]; [destruct (Req_dec z 0) as [EZ|NZ]; [exfalso; auto|]|]|].
  - pose proof (sq_gap D z PD MZ NZ). lra.
  - pose proof (sq_gap D y PD MY NY). lra.
  - pose proof (sq_gap D x PD MX NX). lra.
Qed.
Lemma diff_far i j : (i < n)%nat -> (j < n)%nat -> P i <> P j -> let u := rvsub (P i) (P j) in eps < sqrt (0 + rx u * rx u + ry u * ry u + rz u * rz u).
Proof.
  intros A B N u. destruct (sub_small pts k M Kp OG i j A B) as ([U1 _] & [U2 _] & [U3 _]). fold P in U1, U2, U3. fold u in U1, U2, U3. rewrite Rplus_0_l.
  pose proof KG. apply (big_sqrt K); [lra| |apply sum_gap; [lra|assumption..|]|exact eK1].
  - pose proof (Rle_0_sqr (rx u)). pose proof (Rle_0_sqr (ry u)). pose proof (Rle_0_sqr (rz u)). unfold Rsqr in *. lra.
  - intros (X1 & X2 & X3). apply N. unfold u, rvsub in *. cbn [rx ry rz] in *. destruct (P i) as [p0 p1 p2], (P j) as [q0 q1 q2]. cbn [rx ry rz] in *. f_equal; lra.
Qed.
Lemma cross_far h i j : (h < n)%nat -> (i < n)%nat -> (j < n)%nat -> let u := rvsub (P h) (P j) in let w := rvsub (P i) (P j) in rvcross u w <> RV 0 0 0 ->
  forall N2, N2 = rx u * rx u + ry u * ry u + rz u * rz u ->
  eps < sqrt (((ry u * rz w - rz u * ry w) * (ry u * rz w - rz u * ry w) + (rz u * rx w - rx u * rz w) * (rz u * rx w - rx u * rz w) + (rx u * ry w - ry u * rx w) * (rx u * ry w - ry u * rx w)) / N2).
Proof.
  intros A B C u w N N2 EN. destruct (sub_small pts k M Kp OG h j A C) as ([U1 V1] & [U2 V2] & [U3 V3]). fold P in U1, U2, U3, V1, V2, V3. fold u in U1, U2, U3, V1, V2, V3.
  destruct (sub_small pts k M Kp OG i j B C) as ([W1 _] & [W2 _] & [W3 _]). fold P in W1, W2, W3. fold w in W1, W2, W3.
  set (c0 := ry u * rz w - rz u * ry w). set (c1 := rz u * rx w - rx u * rz w). set (c2 := rx u * ry w - ry u * rx w).
  assert (~ (c0 = 0 /\ c1 = 0 /\ c2 = 0)) as NZ by (intros (Z0 & Z1 & Z2); apply N; unfold rvcross; fold c0 c1 c2; congruence).
  assert (mult (K * K) c0 /\ mult (K * K) c1 /\ mult (K * K) c2) as (Q0 & Q1 & Q2) by (repeat split; apply mult_sub; apply mult_mul; assumption).
  pose proof KG as KG0. assert (0 < K * K) as PK by nra. pose proof (sum_gap (K * K) c0 c1 c2 PK Q0 Q1 Q2 NZ) as G.
  assert (0 < N2) as PN.
  { destruct (Rle_lt_dec N2 0) as [X|X]; [|exact X]. exfalso. rewrite EN in X. apply sumsq_zero in X as (X0 & X1 & X2). apply NZ. unfold c0, c1, c2. rewrite X0, X1, X2. repeat split; ring. }
  assert (N2 <= 16 * (M * M)) as BN.
  { rewrite EN. assert (forall x, Rabs x <= 2 * M -> x * x <= (2 * M) * (2 * M)) as SQ by (intros x Hx; rewrite <- (Rabs_pos_eq (x * x)) by (pose proof (Rle_0_sqr x); unfold Rsqr in *; lra); rewrite Rabs_mult; apply Rmult_le_compat; auto using Rabs_pos).
    pose proof (SQ _ V1). pose proof (SQ _ V2). pose proof (SQ _ V3). nra. }
  assert (0 <= c0 * c0 + c1 * c1 + c2 * c2) as PC by (pose proof (Rle_0_sqr c0); pose proof (Rle_0_sqr c1); pose proof (Rle_0_sqr c2); unfold Rsqr in *; lra).
  apply (big_sqrt (4 * M * K ^ 2)).
  - apply Rmult_lt_0_compat; [lra|]. replace (K ^ 2) with (K * K) by ring. exact PK.
  - apply Rmult_le_pos; [exact PC|]. apply Rlt_le, Rinv_0_lt_compat, PN.
  - apply (Rmult_le_reg_r N2); [exact PN|]. replace ((c0 * c0 + c1 * c1 + c2 * c2) / N2 * (4 * M * K ^ 2 * (4 * M * K ^ 2)) * N2) with ((c0 * c0 + c1 * c1 + c2 * c2) * (K * K * (K * K)) * (16 * (M * M))) by (field; lra).
    rewrite Rmult_1_l. eapply Rle_trans; [exact BN|]. rewrite <- (Rmult_1_l (16 * (M * M))) at 1. apply Rmult_le_compat_r; [nra|exact G].
  - exact eK2.
Qed.

Definition basis_ok (basis out : list nat) : Prop := Permutation (basis ++ out) (seq 0 n).
Lemma basis_lt basis out i : basis_ok basis out -> In i (basis ++ out) -> (i < n)%nat.
Proof. intros H I. apply (Permutation_in i H) in I. apply in_seq in I. lia. Qed.
Lemma basis_nodup basis out : basis_ok basis out -> NoDup (basis ++ out).
Proof. intros H. apply (Permutation_NoDup (Permutation_sym H)), seq_NoDup. Qed.
Lemma basis_length basis out : basis_ok basis out -> (length basis + length out = n)%nat.
Proof. intros H. rewrite <- app_length, (Permutation_length H), seq_length. reflexivity. Qed.
Lemma project_zero pr : length pr = 3%nat -> ~ 0 < dot_from 0 pr pr -> pr = [0; 0; 0].
Proof.
  destruct pr as [|x [|y [|z [|? ?]]]]; try discriminate. intros _ X. cbn in X. assert (x * x + y * y + z * z <= 0) as Y by lra. apply sumsq_zero in Y as (-> & -> & ->). reflexivity.
Qed.
Lemma vol_eq3 a b c d u w x y z : rvsub b a = u -> rvsub c a = w -> rvsub d a = RV (x * rx u + y * rx w) (x * ry u + y * ry w) z -> z = x * rz u + y * rz w -> vol a b c d = 0.
Proof. intros A B C D. unfold vol. rewrite A, B, C, D. unfold rvdot, rvcross. cbn [rx ry rz]. ring. Qed.
Lemma nodup4 (a b c d : nat) r : NoDup (a :: b :: c :: d :: r) -> NoDup [a; b; c; d].
Proof.
  intros ND. inversion ND as [|? ? Q1 ND1]; subst. inversion ND1 as [|? ? Q2 ND2]; subst. inversion ND2 as [|? ? Q3 ND3]; subst. inversion ND3 as [|? ? Q4 _]; subst.
  cbn in Q1, Q2, Q3. repeat constructor; cbn; tauto.
Qed.
End Basis.
