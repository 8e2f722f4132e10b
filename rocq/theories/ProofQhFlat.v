(** convex_hull3d on points of one plane: at most three of them are returned. *)
From Coq Require Import List Arith Bool Reals Lra Lia ZArith Permutation.
From Verif Require Import Base LoopFacts ModelPlane ModelQuickhull SpecQuickhull ProofQhGeo ProofQhMesh ProofQhRidge ProofQhWalk ProofQhStep ProofQhDet ProofQhBasis.
Import ListNotations.
Local Open Scope R_scope.

Definition sq (x : R) := x * x.
Definition dot3 (a b c d e f : R) := a * d + b * e + c * f.
Lemma cross_sq a b c d e f N : N <> 0 -> N * N = a * a + b * b + c * c ->
  d * d + e * e + f * f - sq (- dot3 a b c d e f / N) = (sq (b * f - c * e) + sq (c * d - a * f) + sq (a * e - b * d)) / (N * N).
Proof.
  intros NZ NN. unfold sq, dot3. replace (d * d + e * e + f * f - - (a * d + b * e + c * f) / N * (- (a * d + b * e + c * f) / N)) with (((d * d + e * e + f * f) * (N * N) - (a * d + b * e + c * f) * (a * d + b * e + c * f)) / (N * N)) by (field; exact NZ).
  f_equal. rewrite NN. ring.
Qed.
Lemma householder_fail eps a b c m rest : ~ eps < sqrt (0 + a * a + b * b + c * c) -> householder eps 0 (S m) ([a; b; c] :: rest) = None.
Proof. intros X. cbn [householder]. change (dot_from 0 [a; b; c] [a; b; c]) with (0 + a * a + b * b + c * c). destruct (Rlt_dec _ _); [contradiction|reflexivity]. Qed.
Lemma basis_2_or eps a b c d e f : 0 <= eps ->
  householder eps 0 2 [[a; b; c]; [d; e; f]] = None \/
  exists v w x y z, householder eps 0 2 [[a; b; c]; [d; e; f]] = Some [v; w] /\
    transform 0 [v; w] (unit_row 0) = [x * a; x * b; x * c] /\ transform 0 [v; w] (unit_row 1) = [y * a + z * d; y * b + z * e; y * c + z * f] /\
    dot3 (x * a) (x * b) (x * c) (x * a) (x * b) (x * c) = 1 /\ dot3 (x * a) (x * b) (x * c) (y * a + z * d) (y * b + z * e) (y * c + z * f) = 0 /\
    dot3 (y * a + z * d) (y * b + z * e) (y * c + z * f) (y * a + z * d) (y * b + z * e) (y * c + z * f) = 1.
Proof.
  intros E. destruct (Rlt_dec eps (sqrt (0 + a * a + b * b + c * c))) as [X|X]; [|left; apply householder_fail; exact X].
  destruct (householder_1 eps a b c E X) as (N & v0 & v1 & v2 & R & H).
  pose proof (refl_dot _ _ _ _ _ _ _ d e f R) as RD. destruct R as (NN & NZ & V & E0 & E1 & E2).
  pose proof (refl_norm v0 v1 v2 d e f V) as RN. destruct (refl_twice v0 v1 v2 d e f 0 V) as [RT _]. cbn zeta in RD, RN, RT.
  set (s := v0 * d + v1 * e + v2 * f) in *. set (r0 := d - v0 * s) in *. set (r1 := e - v1 * s) in *. set (r2 := f - v2 * s) in *.
  assert (householder eps 0 2 [[a; b; c]; [d; e; f]] = option_map (cons [v0; v1; v2]) (householder eps 1 1 [[r0; r1; r2]])) as H2.
  { rewrite H. cbn [map]. do 3 f_equal.
    replace (sub_from 0 [v0; v1; v2] (dot_from 0 [v0; v1; v2] [d; e; f]) [d; e; f]) with [r0; r1; r2]; [reflexivity|].
    cbn. unfold r0, r1, r2, s. f_equal; [ring|f_equal; [ring|f_equal; ring]]. }
  set (sum := r1 * r1 + r2 * r2) in *. cbn [householder] in H2.
  replace (dot_from 1 [r0; r1; r2] [r0; r1; r2]) with sum in H2 by (cbn; unfold sum; ring). cbn [nth] in H2.
  destruct (Rlt_dec eps (sqrt sum)) as [Y|Y]; [|left; exact H2].
  assert (r1 * r1 <= sum) as LE by (pose proof (Rle_0_sqr r2); unfold Rsqr, sum in *; lra).
  pose proof (reflection eps r1 sum E Y LE) as (MM & MZ & AM & FX). set (norm := if Rlt_dec r1 0 then - sqrt sum else sqrt sum) in *.
  set (F := sqrt (sum + r1 * norm)) in *. destruct (Rlt_dec eps F) as [_|Q]; [|contradiction].
  assert (norm * norm = r1 * r1 + r2 * r2 + 0 * 0) as M0 by (rewrite MM; unfold sum; ring).
  pose proof (refl_of r1 r2 0 norm M0 MZ AM) as RF. cbn zeta in RF. replace (r1 * r1 + r2 * r2 + 0 * 0 + r1 * norm) with (sum + r1 * norm) in RF by (unfold sum; ring). fold F in RF.
  destruct RF as (_ & _ & _ & F0 & F1 & _).
  right. exists [v0; v1; v2], [r0; (r1 + norm) / F; r2 / F], (- / N), (- (r0 / N) / norm), (- / norm). split; [exact H2|]. split; [|split; [|split; [|split]]].
  - cbn. f_equal; [|f_equal; [|f_equal]]; [transitivity (1 - v0 * v0); [ring|]|transitivity (- (v1 * v0)); [ring|]|transitivity (- (v2 * v0)); [ring|]]; rewrite ?E0, ?E1, ?E2; field; exact NZ.
  - set (g := (r1 + norm) / F) in *. set (h := r2 / F) in *. cbn.
    set (y1 := 1 - g * (0 + g * 1 + h * 0)). set (y2 := 0 - h * (0 + g * 1 + h * 0)).
    assert (y1 = - r1 / norm) as Y1 by (unfold y1; rewrite <- F0; ring). assert (y2 = - r2 / norm) as Y2 by (unfold y2; rewrite <- F1; ring).
    assert (forall vi ri wi ui i0, ri = wi - vi * s -> i0 - vi * v0 = - ui / N ->
      (- (/ norm)) * (ri - r0 * i0) - vi * (0 + v0 * 0 + v1 * y1 + v2 * y2) = - (r0 / N) / norm * ui + - / norm * wi) as G.
    { intros vi ri wi ui i0 A1 A2. assert (v1 * y1 + v2 * y2 = - / norm * (- s - v0 * r0)) as A3.
      { rewrite Y1, Y2. replace (- s) with (v0 * r0 + v1 * r1 + v2 * r2) by exact RT. field. exact MZ. }
      replace (0 + v0 * 0 + v1 * y1 + v2 * y2) with (v1 * y1 + v2 * y2) by ring. rewrite A3, A1.
      transitivity (- / norm * wi + / norm * r0 * (i0 - vi * v0)); [ring|]. rewrite A2. field. auto. }
    f_equal; [|f_equal; [|f_equal]].
    + rewrite <- (G v0 r0 d a 1); [|reflexivity|rewrite <- E0; ring]. f_equal. field. exact MZ.
    + rewrite <- (G v1 r1 e b 0); [|reflexivity|rewrite <- E1; ring]. f_equal. fold y1. rewrite Y1. field. exact MZ.
    + rewrite <- (G v2 r2 f c 0); [|reflexivity|rewrite <- E2; ring]. f_equal. fold y2. rewrite Y2. field. exact MZ.
  - unfold dot3. transitivity ((a * a + b * b + c * c) / (N * N)); [field; exact NZ|]. rewrite <- NN. field. exact NZ.
  - unfold dot3. transitivity ((a * d + b * e + c * f + r0 * (a * a + b * b + c * c) / N) / (N * norm)); [field; auto|]. rewrite <- NN, RD. field. auto.
  - unfold dot3. transitivity ((d * d + e * e + f * f + 2 * r0 * (a * d + b * e + c * f) / N + r0 * r0 * (a * a + b * b + c * c) / (N * N)) / (norm * norm)); [field; auto|].
    rewrite <- NN, MM. replace (a * d + b * e + c * f) with (- (r0 * N)) by (rewrite RD; field; exact NZ). rewrite <- RN. fold sum.
    replace (r0 * r0 + r1 * r1 + r2 * r2 + 2 * r0 * - (r0 * N) / N + r0 * r0 * (N * N) / (N * N)) with sum by (unfold sum; field; exact NZ).
    field. rewrite <- MM. intros Z0. apply MZ. apply Rsqr_0_uniq. exact Z0.
Qed.

(** the projection of a vector of the plane *)
Lemma project_plane a b c d e f x y z u v w : 
  dot3 (x * a) (x * b) (x * c) (x * a) (x * b) (x * c) = 1 -> dot3 (x * a) (x * b) (x * c) (y * a + z * d) (y * b + z * e) (y * c + z * f) = 0 ->
  dot3 (y * a + z * d) (y * b + z * e) (y * c + z * f) (y * a + z * d) (y * b + z * e) (y * c + z * f) = 1 ->
  dot3 (b * f - c * e) (c * d - a * f) (a * e - b * d) u v w = 0 ->
  project [[x * a; x * b; x * c]; [y * a + z * d; y * b + z * e; y * c + z * f]] [u; v; w] = [0; 0; 0].
Proof.
  intros O1 O2 O3 V.
  assert (let c0 := (x * b) * (y * c + z * f) - (x * c) * (y * b + z * e) in let c1 := (x * c) * (y * a + z * d) - (x * a) * (y * c + z * f) in
    let c2 := (x * a) * (y * b + z * e) - (x * b) * (y * a + z * d) in c0 * u + c1 * v + c2 * w = 0) as CV.
  { cbn zeta. transitivity (x * z * dot3 (b * f - c * e) (c * d - a * f) (a * e - b * d) u v w); [unfold dot3; ring|rewrite V; ring]. }
  revert O1 O2 O3 CV. generalize (x * a) (x * b) (x * c) (y * a + z * d) (y * b + z * e) (y * c + z * f). clear. intros p q r p' q' r'. unfold dot3, project. cbn. intros O1 O2 O3 CV.
  assert (forall t i j : R, t + i * - (0 + p * u + q * v + r * w) + j * - (0 + p' * u + q' * v + r' * w) = t - i * (p * u + q * v + r * w) - j * (p' * u + q' * v + r' * w)) as S by (intros; ring).
  rewrite !S. clear S.
  (* v - q0 (q0.v) - q1 (q1.v) = c (c.v) for orthonormal q0, q1 and c their cross product, up to multiples of the relations *)
  set (A := p * p + q * q + r * r) in *. set (B := p * p' + q * q' + r * r') in *. set (C := p' * p' + q' * q' + r' * r') in *.
  set (D := (q * r' - r * q') * u + (r * p' - p * r') * v + (p * q' - q * p') * w) in *.
  set (m := p * u + q * v + r * w). set (m' := p' * u + q' * v + r' * w).
  assert (forall t, t * (A * C - B * B) = t) as GR by (intros t; rewrite O1, O2, O3; ring).
  f_equal; [|f_equal; [|f_equal]].
  - rewrite <- (GR u). transitivity ((u * (A * C - B * B) - p * (m * C - m' * B) - p' * (m' * A - m * B))); [rewrite O1, O2, O3; ring|].
    transitivity ((q * r' - r * q') * D); [unfold A, B, C, D, m, m'; ring|rewrite CV; ring].
  - rewrite <- (GR v). transitivity ((v * (A * C - B * B) - q * (m * C - m' * B) - q' * (m' * A - m * B))); [rewrite O1, O2, O3; ring|].
    transitivity ((r * p' - p * r') * D); [unfold A, B, C, D, m, m'; ring|rewrite CV; ring].
  - rewrite <- (GR w). transitivity ((w * (A * C - B * B) - r * (m * C - m' * B) - r' * (m' * A - m * B))); [rewrite O1, O2, O3; ring|].
    transitivity ((p * q' - q * p') * D); [unfold A, B, C, D, m, m'; ring|rewrite CV; ring].
Qed.

Section Flat.
Variables (eps : R) (pts : list v3r) (nv : v3r) (h : R).
Let n := length pts.
Let P := pt pts.
Hypothesis Eps : 0 <= eps.
Hypothesis NV : nv <> RV 0 0 0.
Hypothesis PL : forall p, In p pts -> rvdot nv p = h.
Lemma on_plane i : (i < n)%nat -> rvdot nv (P i) = h.
Proof. intros B. apply PL. apply nth_In. exact B. Qed.
Lemma flat_vol a b c d : (a < n)%nat -> (b < n)%nat -> (c < n)%nat -> (d < n)%nat -> vol (P a) (P b) (P c) (P d) = 0.
Proof.
  intros A B C D. apply on_plane in A, B, C, D. revert A B C D NV. generalize (P a) (P b) (P c) (P d). intros [a0 a1 a2] [b0 b1 b2] [c0 c1 c2] [d0 d1 d2]. destruct nv as [n0 n1 n2].
  unfold rvdot, vol, rvdot, rvcross, rvsub. cbn [rx ry rz]. intros A B C D N.
  set (u0 := b0 - a0). set (u1 := b1 - a1). set (u2 := b2 - a2). set (v0 := c0 - a0). set (v1 := c1 - a1). set (v2 := c2 - a2). set (w0 := d0 - a0). set (w1 := d1 - a1). set (w2 := d2 - a2).
  assert (n0 * u0 + n1 * u1 + n2 * u2 = 0) as U by (unfold u0, u1, u2; lra). assert (n0 * v0 + n1 * v1 + n2 * v2 = 0) as V by (unfold v0, v1, v2; lra). assert (n0 * w0 + n1 * w1 + n2 * w2 = 0) as W by (unfold w0, w1, w2; lra).
  set (x := (u1 * v2 - u2 * v1) * w0 + (u2 * v0 - u0 * v2) * w1 + (u0 * v1 - u1 * v0) * w2).
  assert (x * n0 = 0) as X0 by (transitivity ((n0 * u0 + n1 * u1 + n2 * u2) * (v1 * w2 - v2 * w1) + (n0 * v0 + n1 * v1 + n2 * v2) * (w1 * u2 - w2 * u1) + (n0 * w0 + n1 * w1 + n2 * w2) * (u1 * v2 - u2 * v1)); [unfold x; ring|rewrite U, V, W; ring]).
  assert (x * n1 = 0) as X1 by (transitivity ((n0 * u0 + n1 * u1 + n2 * u2) * (v2 * w0 - v0 * w2) + (n0 * v0 + n1 * v1 + n2 * v2) * (w2 * u0 - w0 * u2) + (n0 * w0 + n1 * w1 + n2 * w2) * (u2 * v0 - u0 * v2)); [unfold x; ring|rewrite U, V, W; ring]).
  assert (x * n2 = 0) as X2 by (transitivity ((n0 * u0 + n1 * u1 + n2 * u2) * (v0 * w1 - v1 * w0) + (n0 * v0 + n1 * v1 + n2 * v2) * (w0 * u1 - w1 * u0) + (n0 * w0 + n1 * w1 + n2 * w2) * (u0 * v1 - u1 * v0)); [unfold x; ring|rewrite U, V, W; ring]).
  destruct (Req_dec x 0) as [Z|Z]; [exact Z|exfalso]. apply N.
  apply Rmult_integral in X0 as [X0|X0]; [contradiction|]. apply Rmult_integral in X1 as [X1|X1]; [contradiction|]. apply Rmult_integral in X2 as [X2|X2]; [contradiction|]. rewrite X0, X1, X2. reflexivity.
Qed.
Lemma basis_in basis out i : basis_ok pts basis out -> In i (basis ++ out) -> (i < length pts)%nat.
Proof. intros H I. apply (Permutation_in i H) in I. apply in_seq in I. lia. Qed.
Lemma steal_ok basis out : basis <> [] -> basis_ok pts basis out ->
  steal_best eps pts basis out = Ok None \/ exists i out', steal_best eps pts basis out = Ok (Some (basis ++ [i], out')) /\ basis_ok pts (basis ++ [i]) out'.
Proof.
  intros NE BO. destruct (exists_last NE) as (b' & o & EB). unfold steal_best.
  assert (last (map Some basis) None = Some o) as -> by (rewrite EB, map_app; apply last_last). cbn [of_option bind].
  rewrite (get_ok pts o (RV 0 0 0)) by (apply (basis_in _ _ _ BO), in_or_app; left; rewrite EB; apply in_or_app; right; left; reflexivity). cbn [bind]. fold (pt pts o). fold P.
  assert (forall l, incl l basis -> mapM (fun i => p <- get pts i ;; Ok (minus (comps p) (comps (P o)))) l = Ok (map (fun i => minus (comps (P i)) (comps (P o))) l)) as EM.
  { induction l as [|x l IH]; intros IN; cbn [mapM map]; [reflexivity|]. rewrite (get_ok pts x (RV 0 0 0)) by (apply (basis_in _ _ _ BO), in_or_app; left; apply IN; left; reflexivity). cbn [bind]. rewrite IH by (intros y Y; apply IN; right; exact Y). reflexivity. }
  rewrite EM by (intros y Y; rewrite <- (firstn_skipn (length basis - 1) basis); apply in_or_app; left; exact Y). cbn [bind].
  destruct (householder _ _ _ _) as [packed|]; [|left; reflexivity].
  match goal with |- context [furthest ?a ?b ?c ?d ?e ?f ?g] => destruct (furthest_some a b c d e f g) as (best & EF & D); [intros i I; apply (basis_in _ _ _ BO), in_or_app; right; exact I|rewrite EF] end.
  cbn [bind]. destruct D as [->|(j & BJ & ->)]; [left; reflexivity|right]. cbn [Nat.add].
  rewrite (get_ok out j 0%nat) by exact BJ. cbn [bind]. eexists _, _. split; [reflexivity|].
  unfold basis_ok. rewrite <- app_assoc. eapply perm_trans; [|exact BO]. apply Permutation_app_head. cbn [app]. apply Permutation_sym. apply take_at. exact BJ.
Qed.
Lemma furthest_none origin qs : forall l pos, (forall i, In i l -> (i < n)%nat /\ project qs (minus (comps (P i)) (comps origin)) = [0; 0; 0]) -> furthest pts origin qs l pos 0 None = Ok None.
Proof.
  induction l as [|i l IH]; intros pos B; cbn [furthest]; [reflexivity|]. destruct (B i (or_introl eq_refl)) as [Bi Zi].
  rewrite (get_ok pts i (RV 0 0 0)) by exact Bi. cbn [bind]. fold (pt pts i). fold P. rewrite Zi. destruct (Rlt_dec 0 _) as [X|_]; [cbn in X; lra|]. apply IH. intros j J. apply B. right. exact J.
Qed.
Lemma steal_3_flat o a b out : basis_ok pts [o; a; b] out -> steal_best eps pts [o; a; b] out = Ok None.
Proof.
  intros BO. assert (forall x, In x ([o; a; b] ++ out) -> (x < n)%nat) as B by (intros x X; exact (basis_in _ _ _ BO X)).
  unfold steal_best. cbn [map last of_option bind length Nat.sub firstn mapM].
  rewrite !(get_ok pts _ (RV 0 0 0)) by (apply B; cbn; auto). cbn [bind]. fold (pt pts b). fold (pt pts o). fold (pt pts a). fold P.
  set (u := rvsub (P o) (P b)). set (w := rvsub (P a) (P b)).
  change (minus (comps (P o)) (comps (P b))) with [rx u; ry u; rz u]. change (minus (comps (P a)) (comps (P b))) with [rx w; ry w; rz w].
  destruct (basis_2_or eps (rx u) (ry u) (rz u) (rx w) (ry w) (rz w) Eps) as [->|(v & v' & x & y & z & -> & T1 & T2 & O1 & O2 & O3)]; [reflexivity|].
  cbn [seq map]. rewrite T1, T2. rewrite furthest_none; [reflexivity|].
  intros i I. assert (i < n)%nat as Bi by (apply B; apply in_or_app; right; exact I). split; [exact Bi|].
  apply project_plane; [assumption..|]. pose proof (flat_vol b o a i (B b ltac:(cbn; auto)) (B o ltac:(cbn; auto)) (B a ltac:(cbn; auto)) Bi) as V. exact V.
Qed.
Lemma flat_basis : (0 < n)%nat -> exists basis out, affine_basis eps pts (seq 0 n) = Ok (basis, out) /\ basis_ok pts basis out /\ (length basis <= 3)%nat.
Proof.
  intros N1. assert (seq 0 n = 0%nat :: seq 1 (n - 1)) as ES by (destruct n as [|m]; [lia|cbn; rewrite Nat.sub_0_r; reflexivity]).
  rewrite ES. unfold affine_basis. cbn [grow_basis].
  assert (basis_ok pts [0%nat] (seq 1 (n - 1))) as B0 by (unfold basis_ok; fold n; rewrite ES; apply Permutation_refl).
  destruct (steal_ok [0%nat] _ ltac:(discriminate) B0) as [E1|(i & o1 & E1 & B1)]; rewrite E1; cbn [bind]; [eexists _, _; split; [reflexivity|split; [exact B0|cbn; lia]]|]. cbn [app] in B1 |- *.
  destruct (steal_ok [0%nat; i] _ ltac:(discriminate) B1) as [E2|(j & o2 & E2 & B2)]; rewrite E2; cbn [bind]; [eexists _, _; split; [reflexivity|split; [exact B1|cbn; lia]]|]. cbn [app] in B2 |- *.
  rewrite (steal_3_flat _ _ _ _ B2). cbn [bind]. eexists _, _. split; [reflexivity|split; [exact B2|cbn; lia]].
Qed.
End Flat.
