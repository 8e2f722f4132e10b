(** quickhull: on a grid the determinants are exact and the planes tell the
    sides. *)
From Coq Require Import List Arith Bool ZArith Reals Lra Lia.
From Verif Require Import Base LoopFacts ModelPlane ModelQuickhull SpecQuickhull ProofQhGeo ProofQhMesh ProofQhRidge ProofQhWalk ProofQhStep.
Import ListNotations.
Local Open Scope R_scope.

Definition det3 (a b c d e f g h i : R) : R := a * (e * i - f * h) - b * (d * i - f * g) + c * (d * h - e * g).

Section Grid.
Variables (eps K : R).
Hypothesis Eps : 0 <= eps.
Hypothesis K1 : 1 <= K.

Definition clear (x : R) : Prop := x = 0 \/ eps < Rabs x.
Lemma clear_pos x : clear x -> x <> 0 -> eps < Rabs x. Proof. intros [H|H] N; [contradiction|exact H]. Qed.
(** a multiple of [1 / D] *)
Definition mult (D x : R) : Prop := exists z, x * D = IZR z.
Lemma mult_gap D x : 0 < D -> mult D x -> x <> 0 -> 1 <= Rabs x * D.
Proof.
  intros PD [z E] N. rewrite <- (Rabs_pos_eq D) by lra. rewrite <- Rabs_mult, E, <- abs_IZR. apply IZR_le.
  assert (z <> 0)%Z by (intros ->; apply Rmult_integral in E as [E|E]; lra). lia.
Qed.
Lemma mult_mul D D' x y : mult D x -> mult D' y -> mult (D * D') (x * y).
Proof. intros [z E] [z' E']. exists (z * z')%Z. rewrite mult_IZR, <- E, <- E'. ring. Qed.
Lemma mult_sub D x y : mult D x -> mult D y -> mult D (x - y).
Proof. intros [z E] [z' E']. exists (z - z')%Z. rewrite minus_IZR, <- E, <- E'. ring. Qed.
Lemma mult_add D x y : mult D x -> mult D y -> mult D (x + y).
Proof. intros [z E] [z' E']. exists (z + z')%Z. rewrite plus_IZR, <- E, <- E'. ring. Qed.
Lemma quot_clear D x p B : 0 < D -> mult D x -> p <> 0 -> Rabs p <= B -> eps * B * D < 1 -> clear (x / p).
Proof.
  intros PD MX Np Bp E. destruct (Req_EM_T x 0) as [->|Nx]; [left; unfold Rdiv; ring|right].
  pose proof (mult_gap D x PD MX Nx) as G. assert (0 < Rabs p) as Pp by (apply Rabs_pos_lt; exact Np).
  unfold Rdiv. rewrite Rabs_mult, Rabs_inv. apply (Rmult_lt_reg_r (Rabs p)); [exact Pp|]. rewrite Rmult_assoc, Rinv_l, Rmult_1_r by lra.
  apply (Rmult_lt_reg_r D); [exact PD|]. assert (eps * Rabs p * D <= eps * B * D); [|lra]. apply Rmult_le_compat_r; [lra|]. apply Rmult_le_compat_l; assumption.
Qed.

Lemma lup1 x : clear x -> lup eps 1 [[x]] = x.
Proof.
  intros H. cbn. destruct (Rlt_dec eps (Rabs x)) as [A|A]; [cbn; ring|]. destruct H as [->|H]; [reflexivity|contradiction].
Qed.
Lemma lup2 x y u w : clear x -> clear u -> (x <> 0 -> Rabs u <= Rabs x -> clear (w - u / x * y)) -> (u <> 0 -> Rabs x < Rabs u -> clear (y - x / u * w)) ->
  lup eps 2 [[x; y]; [u; w]] = x * w - y * u.
Proof.
  intros Cx Cu H1 H2. remember (lup eps 1) as l1 eqn:E1. cbn. cbn in E1.
  destruct (Rlt_dec (Rabs x) (Rabs u)) as [A|A]; cbn.
  - assert (u <> 0) as Nu by (intros ->; rewrite Rabs_R0 in A; pose proof (Rabs_pos x); lra).
    destruct (Rlt_dec eps (Rabs u)) as [B|B]; [|destruct Cu; contradiction].
    pose proof (lup1 _ (H2 Nu A)) as L. cbn in L. rewrite L. field. exact Nu.
  - destruct (Rlt_dec eps (Rabs x)) as [B|B].
    + assert (x <> 0) as Nx by (intros ->; rewrite Rabs_R0 in B; lra). pose proof (lup1 _ (H1 Nx (Rnot_lt_le _ _ A))) as L. cbn in L. rewrite L. field. exact Nx.
    + destruct Cx as [->|Cx]; [|contradiction]. rewrite Rabs_R0 in A. destruct Cu as [->|Cu]; [ring|]. exfalso. lra.
Qed.

Variable B : R.
Hypothesis B1 : 1 <= B.
Hypothesis HE : 2 * eps * K ^ 3 * B ^ 2 < 1.
Lemma K3 : 1 <= K ^ 3. Proof. replace 1 with (1 ^ 3) by ring. apply pow_incr. lra. Qed.
Lemma he1 : eps * 1 * K < 1.
Proof.
  assert (eps * 1 * K <= 2 * eps * K ^ 3 * B ^ 2); [|lra]. assert (1 <= B ^ 2) by nra. assert (K <= K ^ 3) by (assert (1 <= K * K) by nra; nra).
  assert (0 <= eps * K) by nra. assert (eps * K <= eps * K ^ 3) by (apply Rmult_le_compat_l; lra). assert (eps * K ^ 3 * 1 <= eps * K ^ 3 * B ^ 2) by (apply Rmult_le_compat_l; nra). nra.
Qed.
Lemma he2 : eps * B * K ^ 2 < 1.
Proof.
  assert (eps * B * K ^ 2 <= 2 * eps * K ^ 3 * B ^ 2); [|lra]. assert (B <= B ^ 2) by nra. assert (1 <= K ^ 2) by nra. assert (K ^ 2 <= K ^ 3) by nra.
  assert (0 <= eps * B) by nra. assert (eps * B * K ^ 2 <= eps * B * K ^ 3) by (apply Rmult_le_compat_l; lra). assert (eps * K ^ 3 * B <= eps * K ^ 3 * B ^ 2) by (apply Rmult_le_compat_l; nra). nra.
Qed.
Definition small (x : R) : Prop := mult K x /\ Rabs x <= B.
Lemma small_clear x : small x -> clear x.
Proof. intros [Mx _]. replace x with (x / 1) by field. apply (quot_clear K x 1 1); [lra|exact Mx|lra|rewrite Rabs_R1; lra|exact he1]. Qed.
Lemma elim_clear a b d e : small a -> small b -> small d -> small e -> a <> 0 -> clear (e - d / a * b).
Proof.
  intros [Ma Ba] [Mb _] [Md _] [Me _] Na. replace (e - d / a * b) with ((a * e - d * b) / a) by (field; exact Na).
  apply (quot_clear (K ^ 2) _ a B); [nra| |exact Na|exact Ba|exact he2]. replace (K ^ 2) with (K * K) by ring. apply mult_sub; apply mult_mul; assumption.
Qed.
Lemma elim_bound a b d e : small b -> small e -> a <> 0 -> Rabs d <= Rabs a -> Rabs (e - d / a * b) <= 2 * B.
Proof.
  intros [_ Bb] [_ Be] Na D. assert (Rabs (d / a) <= 1) as Q.
  { unfold Rdiv. rewrite Rabs_mult, Rabs_inv. apply (Rmult_le_reg_r (Rabs a)); [apply Rabs_pos_lt; exact Na|]. rewrite Rmult_assoc, Rinv_l; [lra|]. apply Rabs_no_R0. exact Na. }
  unfold Rminus. apply Rle_trans with (Rabs e + Rabs (- (d / a * b))); [apply Rabs_triang|]. rewrite Rabs_Ropp, Rabs_mult.
  pose proof (Rabs_pos b). pose proof (Rabs_pos (d / a)). nra.
Qed.
Lemma pivot_ok a b c d e f g h i : small a -> small b -> small c -> small d -> small e -> small f -> small g -> small h -> small i ->
  a <> 0 -> Rabs d <= Rabs a -> Rabs g <= Rabs a ->
  lup eps 2 [[e - d / a * b; f - d / a * c]; [h - g / a * b; i - g / a * c]] = det3 a b c d e f g h i / a.
Proof.
  intros Sa Sb Sc Sd Se Sf Sg Sh Si Na Da Ga. rewrite lup2.
  - unfold det3. field. exact Na.
  - apply elim_clear; assumption.
  - apply elim_clear; assumption.
  - intros Nx _. assert (a * e - d * b <> 0) as Nm by (intros X; apply Nx; replace (e - d / a * b) with ((a * e - d * b) / a) by (field; exact Na); rewrite X; unfold Rdiv; ring).
    replace (i - g / a * c - (h - g / a * b) / (e - d / a * b) * (f - d / a * c)) with (det3 a b c d e f g h i / (a * (e - d / a * b)))
      by (unfold det3; field; repeat split; first [exact Na|intros X; apply Nm; lra]).
    apply (quot_clear (K ^ 3) _ _ (B * (2 * B))); [pose proof K3; lra| | | |].
    + unfold det3. replace (K ^ 3) with (K * (K * K)) by ring.
      apply mult_add; [apply mult_sub|]; (apply mult_mul; [apply Sa || apply Sb || apply Sc|]); apply mult_sub; apply mult_mul; first [apply Sd|apply Se|apply Sf|apply Sg|apply Sh|apply Si].
    + apply Rmult_integral_contrapositive. split; assumption.
    + rewrite Rabs_mult. apply Rmult_le_compat; try apply Rabs_pos; [apply Sa|]. apply elim_bound; assumption.
    + replace (eps * (B * (2 * B)) * K ^ 3) with (2 * eps * K ^ 3 * B ^ 2) by ring. exact HE.
  - intros Nx _. assert (a * h - g * b <> 0) as Nm by (intros X; apply Nx; replace (h - g / a * b) with ((a * h - g * b) / a) by (field; exact Na); rewrite X; unfold Rdiv; ring).
    replace (f - d / a * c - (e - d / a * b) / (h - g / a * b) * (i - g / a * c)) with ((- det3 a b c d e f g h i) / (a * (h - g / a * b)))
      by (unfold det3; field; repeat split; first [exact Na|intros X; apply Nm; lra]).
    apply (quot_clear (K ^ 3) _ _ (B * (2 * B))); [pose proof K3; lra| | | |].
    + replace (- det3 a b c d e f g h i) with (0 - det3 a b c d e f g h i) by ring. apply mult_sub; [exists 0%Z; ring|]. unfold det3. replace (K ^ 3) with (K * (K * K)) by ring.
      apply mult_add; [apply mult_sub|]; (apply mult_mul; [apply Sa || apply Sb || apply Sc|]); apply mult_sub; apply mult_mul; first [apply Sd|apply Se|apply Sf|apply Sg|apply Sh|apply Si].
    + apply Rmult_integral_contrapositive. split; assumption.
    + rewrite Rabs_mult. apply Rmult_le_compat; try apply Rabs_pos; [apply Sa|]. apply elim_bound; assumption.
    + replace (eps * (B * (2 * B)) * K ^ 3) with (2 * eps * K ^ 3 * B ^ 2) by ring. exact HE.
Qed.
Lemma nz_of_eps a : eps < Rabs a -> a <> 0. Proof. intros H ->. rewrite Rabs_R0 in H. lra. Qed.
Lemma lup_S m r rest : lup eps (S m) (r :: rest) = let '(pivot, max) := find_pivot 1 0 (Rabs (hd 0 r)) rest in
  if Rlt_dec eps max then match swap_rows pivot (r :: rest) with [] => 1 | mi :: others => (if Nat.eqb pivot 0 then 1 else - 1) * hd 0 mi * lup eps m (map (eliminate mi) others) end else 0.
Proof. reflexivity. Qed.
Lemma lup3 a b c d e f g h i : small a -> small b -> small c -> small d -> small e -> small f -> small g -> small h -> small i ->
  lup eps 3 [[a; b; c]; [d; e; f]; [g; h; i]] = det3 a b c d e f g h i.
Proof.
  intros Sa Sb Sc Sd Se Sf Sg Sh Si. pose proof (small_clear _ Sa) as Ca. pose proof (small_clear _ Sd) as Cd. pose proof (small_clear _ Sg) as Cg.
  rewrite lup_S. cbn [find_pivot hd].
  destruct (Rlt_dec (Rabs a) (Rabs d)) as [A1|A1].
  - destruct (Rlt_dec (Rabs d) (Rabs g)) as [A2|A2].
    + destruct (Rlt_dec eps (Rabs g)) as [P|P]; [|exfalso; destruct Cg as [->|X]; [rewrite Rabs_R0 in A2; pose proof (Rabs_pos d); lra|contradiction]].
      cbn [swap_rows nth firstn skipn app Nat.eqb hd map tl combine]; unfold eliminate; cbn [hd tl map combine]. rewrite pivot_ok; try assumption; try lra; [|exact (nz_of_eps _ P)]. unfold det3. field. exact (nz_of_eps _ P).
    + destruct (Rlt_dec eps (Rabs d)) as [P|P]; [|exfalso; destruct Cd as [->|X]; [rewrite Rabs_R0 in A1; pose proof (Rabs_pos a); lra|contradiction]].
      cbn [swap_rows nth firstn skipn app Nat.eqb hd map tl combine]; unfold eliminate; cbn [hd tl map combine]. rewrite pivot_ok; try assumption; try lra; [|exact (nz_of_eps _ P)]. unfold det3. field. exact (nz_of_eps _ P).
  - destruct (Rlt_dec (Rabs a) (Rabs g)) as [A2|A2].
    + destruct (Rlt_dec eps (Rabs g)) as [P|P]; [|exfalso; destruct Cg as [->|X]; [rewrite Rabs_R0 in A2; pose proof (Rabs_pos a); lra|contradiction]].
      cbn [swap_rows nth firstn skipn app Nat.eqb hd map tl combine]; unfold eliminate; cbn [hd tl map combine]. rewrite pivot_ok; try assumption; try lra; [|exact (nz_of_eps _ P)]. unfold det3. field. exact (nz_of_eps _ P).
    + destruct (Rlt_dec eps (Rabs a)) as [P|P].
      * cbn [swap_rows nth firstn skipn app Nat.eqb hd map tl combine]; unfold eliminate; cbn [hd tl map combine]. rewrite pivot_ok; try assumption; try lra; [|exact (nz_of_eps _ P)]. unfold det3. field. exact (nz_of_eps _ P).
      * destruct Ca as [->|X]; [|contradiction]. rewrite Rabs_R0 in A1, A2. assert (d = 0) as -> by (destruct Cd as [X|X]; [exact X|exfalso; lra]). assert (g = 0) as -> by (destruct Cg as [X|X]; [exact X|exfalso; lra]). unfold det3. ring.
Qed.
End Grid.

Section Planes.
Variables (eps : R) (pts : list v3r) (k : Z) (M : R).
Let n := length pts.
Let P := pt pts.
Hypothesis Eps : 0 <= eps.
Hypothesis Kp : (0 < k)%Z.
Hypothesis M1 : 1 <= M.
Hypothesis HE : 16 * eps * IZR k ^ 3 * M ^ 2 < 1.
Hypothesis OG : forall p, In p pts -> on_grid k M p.
Let K := IZR k.
Lemma K_ge : 1 <= K. Proof. apply IZR_le. lia. Qed.
Lemma HEK : 16 * eps * K ^ 3 * M ^ 2 < 1. Proof. exact HE. Qed.
Lemma ek_pos : 0 <= eps * K ^ 3 * M ^ 2.
Proof. pose proof K_ge. apply Rmult_le_pos; [apply Rmult_le_pos; [exact Eps|apply pow_le; lra]|apply pow_le; lra]. Qed.
Lemma HE1 : 2 * eps * K ^ 3 * M ^ 2 < 1. Proof. pose proof HEK. pose proof ek_pos. lra. Qed.
Lemma HE2 : 2 * eps * K ^ 3 * (2 * M) ^ 2 < 1. Proof. pose proof HEK. pose proof ek_pos. replace (2 * eps * K ^ 3 * (2 * M) ^ 2) with (8 * (eps * K ^ 3 * M ^ 2)) by ring. lra. Qed.
Definition coord3 (F : R -> Prop) (p : v3r) : Prop := F (rx p) /\ F (ry p) /\ F (rz p).
Lemma pt_in i : (i < n)%nat -> In (P i) pts. Proof. apply nth_In. Qed.
Lemma grid_small i : (i < n)%nat -> coord3 (small K M) (P i).
Proof.
  intros B. destruct (OG _ (pt_in i B)) as (x & y & z & E & A1 & A2 & A3). assert (K <> 0) as NK by (pose proof K_ge; lra).
  assert (forall z0, mult K (IZR z0 / IZR k)) as MG by (intros z0; exists z0; unfold K; field; exact NK).
  unfold coord3, small. rewrite E in *. cbn [rx ry rz] in *. repeat split; auto.
Qed.
Lemma one_small : small K M 1. Proof. split; [exists k; unfold K; ring|rewrite Rabs_R1; exact M1]. Qed.
Lemma lup3_at a b c d e f g h i : small K M a -> small K M b -> small K M c -> small K M d -> small K M e -> small K M f -> small K M g -> small K M h -> small K M i ->
  lup eps 3 [[a; b; c]; [d; e; f]; [g; h; i]] = det3 a b c d e f g h i.
Proof. apply lup3; [exact Eps|exact K_ge|exact M1|exact HE1]. Qed.
Lemma sub_small i j : (i < n)%nat -> (j < n)%nat -> coord3 (small K (2 * M)) (rvsub (P i) (P j)).
Proof.
  intros A B. destruct (grid_small i A) as ([A1 A2] & [A3 A4] & [A5 A6]). destruct (grid_small j B) as ([B1 B2] & [B3 B4] & [B5 B6]).
  unfold coord3, small, rvsub. cbn [rx ry rz].
  assert (forall x y, Rabs x <= M -> Rabs y <= M -> Rabs (x - y) <= 2 * M) as T by (intros x y X Y; unfold Rminus; eapply Rle_trans; [apply Rabs_triang|]; rewrite Rabs_Ropp; lra).
  repeat split; auto; apply mult_sub; assumption.
Qed.
Lemma vol_mult a b c d : (a < n)%nat -> (b < n)%nat -> (c < n)%nat -> (d < n)%nat -> mult (K ^ 3) (vol (P a) (P b) (P c) (P d)).
Proof.
  intros A B C D. unfold vol. destruct (sub_small b a B A) as ([B1 _] & [B2 _] & [B3 _]). destruct (sub_small c a C A) as ([C1 _] & [C2 _] & [C3 _]). destruct (sub_small d a D A) as ([D1 _] & [D2 _] & [D3 _]).
  unfold rvdot, rvcross. cbn [rx ry rz]. replace (K ^ 3) with ((K * K) * K) by ring.
  repeat apply mult_add; apply mult_mul; try assumption; apply mult_sub; apply mult_mul; assumption.
Qed.
Lemma cr_bound a b c : (a < n)%nat -> (b < n)%nat -> (c < n)%nat -> coord3 (fun x => Rabs x <= 8 * M ^ 2) (cr (P a) (P b) (P c)).
Proof.
  intros A B C. unfold cr. destruct (sub_small b a B A) as ([_ B1] & [_ B2] & [_ B3]). destruct (sub_small c a C A) as ([_ C1] & [_ C2] & [_ C3]).
  assert (forall x y u w, Rabs x <= 2 * M -> Rabs y <= 2 * M -> Rabs u <= 2 * M -> Rabs w <= 2 * M -> Rabs (x * y - u * w) <= 8 * M ^ 2) as T.
  { intros x y u w X Y U W. unfold Rminus. eapply Rle_trans; [apply Rabs_triang|]. rewrite Rabs_Ropp, !Rabs_mult.
    assert (Rabs x * Rabs y <= (2 * M) * (2 * M)) by (apply Rmult_le_compat; auto using Rabs_pos). assert (Rabs u * Rabs w <= (2 * M) * (2 * M)) by (apply Rmult_le_compat; auto using Rabs_pos). lra. }
  unfold coord3, rvcross. cbn [rx ry rz]. repeat split; apply T; assumption.
Qed.
Lemma planes cen t : facet_ok pts cen t -> exists nd, plane_of eps pts t = Ok nd /\ forall i, (i < n)%nat -> sided eps pts t nd i.
Proof.
  intros [[Bt Dt] VC].
  pose proof (Bt I0) as B0. pose proof (Bt I1) as B1. pose proof (Bt I2) as B2. cbn [tget] in B0, B1, B2.
  assert (CT P t <> RV 0 0 0) as NC by (intros X; unfold VT in VC; rewrite (cr_zero_vol _ _ _ _ X) in VC; lra).
  unfold plane_of. rewrite (get_ok pts _ (RV 0 0 0) B0). cbn [bind]. rewrite (get_ok pts _ (RV 0 0 0) B1). cbn [bind]. rewrite (get_ok pts _ (RV 0 0 0) B2). cbn [bind].
  fold (pt pts (t0 t)) (pt pts (t1 t)) (pt pts (t2 t)). fold P.
  destruct (grid_small _ B0) as (A1 & A2 & A3). destruct (grid_small _ B1) as (A4 & A5 & A6). destruct (grid_small _ B2) as (A7 & A8 & A9). pose proof one_small as O.
  unfold hyperplane. rewrite !lup3_at by assumption.
  pose proof (cr_bound _ _ _ B0 B1 B2) as (U1 & U2 & U3). fold (CT P t) in U1, U2, U3.
  set (c := CT P t) in *.
  replace (det3 1 1 1 (ry (P (t0 t))) (ry (P (t1 t))) (ry (P (t2 t))) (rz (P (t0 t))) (rz (P (t1 t))) (rz (P (t2 t)))) with (rx c) by (unfold c, CT, cr, det3, rvcross, rvsub; cbn [rx ry rz]; ring).
  replace (det3 (rx (P (t0 t))) (rx (P (t1 t))) (rx (P (t2 t))) 1 1 1 (rz (P (t0 t))) (rz (P (t1 t))) (rz (P (t2 t)))) with (ry c) by (unfold c, CT, cr, det3, rvcross, rvsub; cbn [rx ry rz]; ring).
  replace (det3 (rx (P (t0 t))) (rx (P (t1 t))) (rx (P (t2 t))) (ry (P (t0 t))) (ry (P (t1 t))) (ry (P (t2 t))) 1 1 1) with (rz c) by (unfold c, CT, cr, det3, rvcross, rvsub; cbn [rx ry rz]; ring).
  set (D := - det3 _ _ _ _ _ _ _ _ _). set (NN := sqrt _).
  assert (0 < rx c * rx c + ry c * ry c + rz c * rz c) as PS.
  { destruct (Rle_lt_dec (rx c * rx c + ry c * ry c + rz c * rz c) 0) as [X|X]; [|exact X]. exfalso. apply NC. 
    pose proof (Rle_0_sqr (rx c)). pose proof (Rle_0_sqr (ry c)). pose proof (Rle_0_sqr (rz c)). unfold Rsqr in *.
    assert (rx c = 0) by (apply Rsqr_0_uniq; unfold Rsqr; lra). assert (ry c = 0) by (apply Rsqr_0_uniq; unfold Rsqr; lra). assert (rz c = 0) by (apply Rsqr_0_uniq; unfold Rsqr; lra).
    destruct c as [c0 c1 c2]. cbn [rx ry rz] in *. congruence. }
  assert (0 < NN) as PN by (apply sqrt_lt_R0; exact PS).
  destruct (Req_EM_T NN 0) as [X|_]; [lra|]. eexists. split; [reflexivity|]. intros i Bi. unfold sided. cbn [fst snd].
  match goal with |- (_ < ?e <-> _) /\ _ => assert (e = VT P t (P i) / NN) as -> end.
  { unfold distance. cbn [fD fnorm rx ry rz]. fold P. unfold VT. rewrite vol_cr. fold (CT P t). fold c. unfold D, c, CT, cr, det3, rvdot, rvcross, rvsub. cbn [rx ry rz]. field. lra. }
  assert (0 < / NN) as IN by (apply Rinv_0_lt_compat; exact PN).
  assert (0 < VT P t (P i) / NN <-> 0 < VT P t (P i)) as E0.
  { split; [|intros X; apply Rmult_lt_0_compat; assumption]. intros X. replace (VT P t (P i)) with (VT P t (P i) / NN * NN) by (field; lra). apply Rmult_lt_0_compat; assumption. }
  split; [|exact E0]. split; [intros X; apply E0; lra|]. intros X.
  change (0 < VT P t (P i)) in X.
  assert (1 <= Rabs (VT P t (P i)) * K ^ 3) as GA by (apply mult_gap; [pose proof K_ge; apply pow_lt; lra|apply vol_mult; assumption|intros Z0; lra]). rewrite Rabs_pos_eq in GA by lra.
  assert (NN <= 16 * M ^ 2) as BN.
  { assert (0 <= M ^ 2) as MP by (apply pow_le; lra). rewrite <- (sqrt_square (16 * M ^ 2)) by lra. apply sqrt_le_1_alt.
    assert (forall x, Rabs x <= 8 * M ^ 2 -> x * x <= (8 * M ^ 2) * (8 * M ^ 2)) as SQ by (intros x Hx; rewrite <- (Rabs_pos_eq (x * x)) by (pose proof (Rle_0_sqr x); unfold Rsqr in *; lra); rewrite Rabs_mult; apply Rmult_le_compat; auto using Rabs_pos).
    pose proof (SQ _ U1). pose proof (SQ _ U2). pose proof (SQ _ U3). pose proof (Rle_0_sqr (M ^ 2)). unfold Rsqr in *. lra. }
  apply (Rmult_lt_reg_r NN); [exact PN|]. unfold Rdiv. rewrite Rmult_assoc, Rinv_l, Rmult_1_r by lra.
  assert (0 < K ^ 3) as PK by (pose proof K_ge; apply pow_lt; lra). apply (Rmult_lt_reg_r (K ^ 3)); [exact PK|].
  assert (eps * NN * K ^ 3 <= eps * (16 * M ^ 2) * K ^ 3) by (apply Rmult_le_compat_r; [lra|]; apply Rmult_le_compat_l; assumption).
  replace (eps * (16 * M ^ 2) * K ^ 3) with (16 * eps * K ^ 3 * M ^ 2) in * by ring. pose proof HEK. lra.
Qed.
(** the volume of the simplex is exact *)
Lemma hypervolume_vol a b c d : (a < n)%nat -> (b < n)%nat -> (c < n)%nat -> (d < n)%nat -> hypervolume eps (P a) (P b) (P c) (P d) = - vol (P a) (P b) (P c) (P d).
Proof.
  intros A B C D. unfold hypervolume, minus, comps. cbn [combine map].
  destruct (sub_small a d A D) as (A1 & A2 & A3). destruct (sub_small b d B D) as (B1 & B2 & B3). destruct (sub_small c d C D) as (C1 & C2 & C3).
  unfold rvsub in *. cbn [rx ry rz] in *.
  rewrite (lup3 eps K Eps K_ge (2 * M)); try assumption; [|lra|exact HE2]. unfold det3, vol, rvdot, rvcross, rvsub. cbn [rx ry rz]. ring.
Qed.
Lemma vol_far a b c d : (a < n)%nat -> (b < n)%nat -> (c < n)%nat -> (d < n)%nat -> vol (P a) (P b) (P c) (P d) <> 0 -> eps < Rabs (vol (P a) (P b) (P c) (P d)).
Proof.
  intros A B C D N. pose proof K_ge as KG.
  assert (0 < K ^ 3) as PK by (apply pow_lt; lra). pose proof (mult_gap (K ^ 3) _ PK (vol_mult a b c d A B C D) N) as G.
  apply (Rmult_lt_reg_r (K ^ 3)); [exact PK|]. pose proof HEK. assert (1 <= M ^ 2) by nra. assert (0 <= eps * K ^ 3) by (apply Rmult_le_pos; lra). assert (eps * K ^ 3 * 1 <= eps * K ^ 3 * M ^ 2) by (apply Rmult_le_compat_l; lra). nra.
Qed.
End Planes.

(** the computed determinant is not larger than the entries allow *)
Lemma find_pivot_ok : forall rows j p m, let r := find_pivot j p m rows in
  m <= snd r /\ (forall x, In x rows -> Rabs (hd 0 x) <= snd r) /\ (r = (p, m) \/ exists q, (q < length rows)%nat /\ fst r = (j + q)%nat /\ snd r = Rabs (hd 0 (nth q rows []))).
Proof.
  induction rows as [|x rows IH]; intros j p m; cbn [find_pivot]; [cbn; split; [lra|]; split; [intros x []|left; reflexivity]|].
  destruct (Rlt_dec m (Rabs (hd 0 x))) as [A|A].
  - destruct (IH (S j) j (Rabs (hd 0 x))) as (H1 & H2 & H3). cbn zeta. split; [lra|]. split; [intros y [<-|Y]; [exact H1|exact (H2 y Y)]|right].
    destruct H3 as [H3|(q & Bq & E1 & E2)]; [exists 0%nat; rewrite H3; cbn; split; [lia|]; split; [lia|reflexivity]|exists (S q); cbn [length nth]; split; [lia|]; split; [lia|exact E2]].
  - destruct (IH (S j) p m) as (H1 & H2 & H3). cbn zeta. split; [exact H1|]. split; [intros y [<-|Y]; [lra|exact (H2 y Y)]|].
    destruct H3 as [H3|(q & Bq & E1 & E2)]; [left; exact H3|right; exists (S q); cbn [length nth]; split; [lia|]; split; [lia|exact E2]].
Qed.
Fixpoint grow (n : nat) (B : R) : R := match n with O => 1 | S m => B * grow m (2 * B) end.
Lemma grow_pos n : forall B, 0 <= B -> 0 <= grow n B.
Proof. induction n as [|n IH]; intros B H; cbn; [lra|]. apply Rmult_le_pos; [exact H|apply IH; lra]. Qed.
Definition entries (B : R) (rows : list (list R)) : Prop := forall r x, In r rows -> In x r -> Rabs x <= B.
Lemma hd_entry B rows r : 0 <= B -> entries B rows -> In r rows -> Rabs (hd 0 r) <= B.
Proof. intros B0 H I. destruct r as [|x r]; cbn; [rewrite Rabs_R0; exact B0|apply (H _ _ I); left; reflexivity]. Qed.
Lemma lup_bound eps : 0 <= eps -> forall n B rows, length rows = n -> 0 <= B -> entries B rows -> Rabs (lup eps n rows) <= grow n B.
Proof.
  intros Eps. induction n as [|n IH]; intros B rows SH B0 H; cbn [lup]; [rewrite Rabs_R1; cbn; lra|].
  destruct rows as [|r rest]; [discriminate|].
  pose proof (find_pivot_ok rest 1 0 (Rabs (hd 0 r))) as FP. destruct (find_pivot 1 0 (Rabs (hd 0 r)) rest) as [pv mx]. cbn zeta in FP. cbn [fst snd] in FP. destruct FP as (F1 & F2 & F3).
  pose proof (grow_pos (S n) B B0) as G0.
  destruct (Rlt_dec eps mx) as [X|X]; [|rewrite Rabs_R0; exact G0].
  assert (exists mi others, swap_rows pv (r :: rest) = mi :: others /\ In mi (r :: rest) /\ incl others (r :: rest) /\ length others = length rest /\ Rabs (hd 0 mi) = mx) as (mi & oth & -> & I1 & I2 & LO & EM).
  { destruct F3 as [F3|(q & Bq & E1 & E2)].
    - injection F3 as -> ->. exists r, rest. cbn. repeat split; auto. intros x Y. right. exact Y.
    - subst pv. exists (nth q rest r), (firstn q rest ++ r :: skipn (S q) rest). cbn [Nat.add swap_rows]. split; [reflexivity|]. split; [right; apply nth_In; exact Bq|]. split; [|split].
      + intros x Y. apply in_app_iff in Y as [Y|[Y|Y]]; [right; rewrite <- (firstn_skipn q rest); apply in_or_app; auto|left; exact Y|right; rewrite <- (firstn_skipn (S q) rest); apply in_or_app; auto].
      + rewrite app_length. cbn [length]. rewrite firstn_length, skipn_length. lia.
      + rewrite E2. f_equal. f_equal. apply nth_indep. exact Bq. }
  assert (hd 0 mi <> 0) as NZ by (intros Y; rewrite Y, Rabs_R0 in EM; lra).
  assert (entries (2 * B) (map (eliminate mi) oth)) as EE.
  { intros row x R X'. apply in_map_iff in R as (mj & <- & Ij). unfold eliminate in X'. apply in_map_iff in X' as ((u, w) & <- & Q).
    pose proof (in_combine_l _ _ _ _ Q) as Qu. pose proof (in_combine_r _ _ _ _ Q) as Qw.
    assert (forall z (l : list R), In z (tl l) -> In z l) as TL by (intros z [|y l] Z; [destruct Z|right; exact Z]).
    pose proof (H _ _ I1 (TL _ _ Qu)) as Bu. pose proof (H _ _ (I2 _ Ij) (TL _ _ Qw)) as Bw.
    assert (Rabs (hd 0 mj) <= mx) as Bj by (destruct (I2 _ Ij) as [<-|J]; [exact F1|exact (F2 _ J)]).
    assert (Rabs (hd 0 mj / hd 0 mi) <= 1) as Q1.
    { unfold Rdiv. rewrite Rabs_mult, Rabs_inv, EM. apply (Rmult_le_reg_r mx); [lra|]. rewrite Rmult_assoc, Rinv_l by lra. lra. }
    unfold Rminus. eapply Rle_trans; [apply Rabs_triang|]. rewrite Rabs_Ropp, Rabs_mult. pose proof (Rabs_pos u). pose proof (Rabs_pos (hd 0 mj / hd 0 mi)). nra. }
  rewrite !Rabs_mult. assert (Rabs (if Nat.eqb pv 0 then 1 else - 1) = 1) as -> by (destruct (Nat.eqb pv 0); [apply Rabs_R1|rewrite Rabs_left; lra]).
  rewrite Rmult_1_l. cbn [grow]. apply Rmult_le_compat; [apply Rabs_pos|apply Rabs_pos|exact (hd_entry B (r :: rest) mi B0 H I1)|].
  apply IH; [|lra|exact EE]. rewrite map_length, LO. cbn in SH. lia.
Qed.
