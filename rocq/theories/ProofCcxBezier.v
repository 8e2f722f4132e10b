(** Bisection of Bezier curves halves the control polygon; when curve-curve intersection succeeds and when it throws. *)
From Coq Require Import List ZArith Lia QArith Qcanon Lqa Bool.
From Verif Require Import Base BaseFacts LoopFacts ModelVec ModelAabb ModelNurbs ModelCcx SpecAabb SpecNurbs SpecCurve SpecCcx
  ProofAabb ProofBspline ProofNurbs ProofInsertion ProofInsertCurve ProofInsertKnot ProofCurve ProofSplit ProofNurbsTop ProofDecompose ProofMinimize
  ProofPolyline ModelPolyline ProofCcx ProofCcxTop.
Import ListNotations.
Open Scope Qc_scope.

(** ** de Casteljau *)
Section Casteljau.
Variables (U : nat -> Qc) (p : nat) (lo hi t : Qc).
Hypothesis HL : forall j, (j <= p)%nat -> U j = lo.
Hypothesis HH : forall j, (p < j)%nat -> U j = hi.
Hypothesis LT : lo < hi.
Hypothesis Ht : t = (hi - lo) * qc 1 2 + lo.

Lemma half_ratio : (t - lo) / (hi - lo) = qc 1 2.
Proof.
  rewrite Ht. assert (hi - lo <> 0) as N by (apply Qcsub_pos; exact LT).
  replace ((hi - lo) * qc 1 2 + lo - lo) with (qc 1 2 * (hi - lo)) by ring. unfold Qcdiv. rewrite <- Qcmult_assoc, Qcmult_inv_r by exact N. apply Qcmult_1_r.
Qed.

Lemma pq_low P q i : (i <= q)%nat -> pq U p p t P (S q) i = pq U p p t P q i.
Proof. intros H. cbn [pq]. cbv zeta. rewrite al_lo by lia. ring. Qed.
Lemma pq_high P q i : (q <= p)%nat -> (p < i)%nat -> pq U p p t P (S q) i = pq U p p t P q (i - 1).
Proof.
  intros Hq H. cbn [pq]. cbv zeta. destruct (Nat.le_gt_cases i (p + q)).
  - rewrite (al_mid _ _ _ _ i (i + p)) by lia. rewrite insr_mid by lia.
    assert ((t - t) = 0) as -> by ring. unfold Qcdiv. ring.
  - rewrite al_hi by lia. ring.
Qed.
Lemma pq_mid P q i : (q < i)%nat -> (i <= p)%nat -> pq U p p t P (S q) i = qc 1 2 * pq U p p t P q i + qc 1 2 * pq U p p t P q (i - 1).
Proof.
  intros H1 H2. cbn [pq]. cbv zeta. rewrite (al_mid _ _ _ _ i (i + p)) by lia.
  rewrite insr_lo by lia. rewrite (insr_hi _ _ _ q (i + p) (i + p - q)) by lia. rewrite HL by lia. rewrite HH by lia. rewrite half_ratio.
  assert (1 - qc 1 2 = qc 1 2) as -> by (apply Qc_is_canon; reflexivity). reflexivity.
Qed.

Definition bnd (d x : Qc) : Prop := - d <= x /\ x <= d.

Lemma casteljau_steps P D : (forall i, (i < p)%nat -> bnd D (P (S i) - P i)) -> forall q, (q <= p)%nat ->
  (forall i, (i < q)%nat -> bnd (D * qc 1 2) (pq U p p t P q (S i) - pq U p p t P q i)) /\
  (forall i, (q <= i)%nat -> (i < p)%nat -> bnd D (pq U p p t P q (S i) - pq U p p t P q i)) /\
  (forall i, (p <= i)%nat -> (i < p + q)%nat -> bnd (D * qc 1 2) (pq U p p t P q (S i) - pq U p p t P q i)).
Proof.
  intros H0. induction q as [|q IH]; intros Hq.
  - split; [intros i Hi; lia|]. split; [intros i _ Hi; apply H0; exact Hi|intros i A B; lia].
  - destruct (IH ltac:(lia)) as (A & B & C). split; [|split].
    + intros i Hi. rewrite (pq_low P q i) by lia. destruct (Nat.eq_dec i q) as [->|].
      * rewrite (pq_mid P q (S q)) by lia. replace (S q - 1)%nat with q by lia. specialize (B q ltac:(lia) ltac:(lia)).
        revert B. generalize (pq U p p t P q (S q)) (pq U p p t P q q). intros x y [B1 B2]. split; qc_lra.
      * rewrite pq_low by lia. apply A. lia.
    + intros i H1 H2. rewrite (pq_mid P q i), (pq_mid P q (S i)) by lia. replace (S i - 1)%nat with i by lia.
      pose proof (B i ltac:(lia) ltac:(lia)) as B1. pose proof (B (i - 1)%nat ltac:(lia) ltac:(lia)) as B2. replace (S (i - 1)) with i in B2 by lia.
      revert B1 B2. generalize (pq U p p t P q (S i)) (pq U p p t P q i) (pq U p p t P q (i - 1)). intros x y z [B1 B2] [B3 B4]. split; qc_lra.
    + intros i H1 H2. rewrite (pq_high P q (S i)) by lia. replace (S i - 1)%nat with i by lia. destruct (Nat.eq_dec i p) as [->|].
      * rewrite (pq_mid P q p) by lia. pose proof (B (p - 1)%nat ltac:(lia) ltac:(lia)) as B1. replace (S (p - 1)) with p in B1 by lia.
        revert B1. generalize (pq U p p t P q p) (pq U p p t P q (p - 1)). intros x y [B1 B2]. split; qc_lra.
      * rewrite pq_high by lia. pose proof (C (i - 1)%nat ltac:(lia) ltac:(lia)) as B1. replace (S (i - 1)) with i in B1 by lia. exact B1.
Qed.
End Casteljau.

(** ** Bezier pieces *)
Definition bez_piece (c q : ncurve) (lo hi D : Qc) : Prop :=
  piece c q lo hi /\ nc_knots q = repeat lo (nc_degree q + 1) ++ repeat hi (nc_degree q + 1) /\
  length (nc_cps q) = (nc_degree q + 1)%nat /\ tight_box q /\ control_steps q D.

Lemma firstn_repeat_app {A} (x : A) n l : firstn n (repeat x n ++ l) = repeat x n.
Proof. apply firstn_app_exact. apply repeat_length. Qed.
Lemma skipn_repeat_app {A} (x : A) n l : skipn n (repeat x n ++ l) = l.
Proof. apply skipn_app_exact. apply repeat_length. Qed.

Lemma knot_bez lo hi p : (forall j, (j <= p)%nat -> knot (repeat lo (p + 1) ++ repeat hi (p + 1)) j = lo) /\
  (forall j, (p < j)%nat -> knot (repeat lo (p + 1) ++ repeat hi (p + 1)) j = hi).
Proof.
  assert (last (repeat lo (p + 1) ++ repeat hi (p + 1)) 0 = hi) as E.
  { replace (repeat hi (p + 1)) with (repeat hi p ++ [hi]) by (rewrite repeat_app; reflexivity). rewrite app_assoc, last_last. reflexivity. }
  split; intros j Hj; unfold knot; rewrite E.
  - rewrite app_nth1 by (rewrite repeat_length; lia). rewrite (nth_indep _ _ lo) by (rewrite repeat_length; lia). apply nth_repeat.
  - rewrite app_nth2 by (rewrite repeat_length; lia). rewrite repeat_length. destruct (Nat.le_gt_cases (p + 1) (j - (p + 1))).
    + apply nth_overflow. rewrite repeat_length. assumption.
    + apply nth_repeat.
Qed.

Lemma coord_xyz ax : exists f, comp4 f /\ forall v, coord (xyz v) ax = f v.
Proof. destruct ax; [exists wx|exists wy|exists wz]; (split; [unfold comp4; auto|reflexivity]). Qed.

Lemma bez_split c q lo hi D : bisectable c -> bez_piece c q lo hi D -> let t := (hi - lo) * qc 1 2 + lo in
  tol12 < (hi - lo) * qc 1 2 -> exists a b, nc_split q t false = Ok (a, b) /\ bez_piece c a lo t (D * qc 1 2) /\ bez_piece c b t hi (D * qc 1 2).
Proof.
  intros BC (P & K & L & TB & CS) t GT. destruct (piece_split _ _ _ _ BC P) as (_ & [(_ & LE)|(_ & a & b & E & PA & PB)]); [exfalso; revert LE; apply Qclt_not_le; exact GT|].
  fold t in E, PA, PB. exists a, b. split; [exact E|].
  destruct (piece_interval _ _ _ _ P) as (EI & LT). assert (lo < t /\ t < hi) as [T1 T2] by (unfold t; split; qc_lra).
  pose proof P as (m & G & D1 & W & I & C & K0 & K1 & _). set (p := nc_degree q) in *.
  assert (m = p) as -> by (destruct G as (G1 & _); lia).
  destruct (knot_bez lo hi p) as [KL KH]. rewrite <- K in KL, KH.
  pose proof G as (_ & V & H8).
  assert (~ In t (nc_knots q)) as NI. { rewrite K. intros X. apply in_app_or in X. destruct X as [X|X]; apply repeat_spec in X; rewrite X in T1, T2; qc_lra. }
  assert (multiplicity (nc_knots q) t = 0%nat) as M0 by (apply mult_not; exact NI).
  destruct BC as (n0 & G0 & HD & _).
  assert (1 <= p)%nat as Hp by (rewrite D1; exact HD).
  destruct (split_ok q p t p) as (a' & b' & E' & _ & _ & KA & KB & cps & Lc & Gc & CA & CB & TA & TBB); try assumption; fold p; try lia.
  { rewrite KL by lia. apply Qclt_le_weak; exact T1. } { rewrite KH by lia. exact T2. } { rewrite KL by lia. exact T1. } { rewrite KH by lia. exact T2. }
  { intros x Hx. rewrite K in Hx. apply in_app_or in Hx. destruct Hx as [X|X]; apply repeat_spec in X; subst x; right.
    - right. unfold t. clear - GT. qc_lra. - left. unfold t. clear - GT. qc_lra. }
  unfold split_points in *. cbv zeta in *. fold p in Lc, Gc, KA, KB. rewrite M0 in Lc, Gc, KA, CA, CB. rewrite ?Nat.sub_0_r in Lc, Gc, KA, CA, CB. rewrite E in E'. assert (a' = a /\ b' = b) as [-> ->] by (split; congruence).
  assert (nc_degree a = p /\ nc_degree b = p) as [DA DB].
  { destruct PA as (? & _ & X & _). destruct PB as (? & _ & Y & _). split; congruence. }
  assert (forall (f : vec4 -> Qc), comp4 f -> (forall i, (i < p)%nat -> bnd D (f (nth (S i) (nc_cps q) d4) - f (nth i (nc_cps q) d4))) ->
    forall i, (i < p + p)%nat -> bnd (D * qc 1 2) (f (nth (S i) cps d4) - f (nth i cps d4))) as ST.
  { intros f Cf Hf i Hi. rewrite (Gc (S i) ltac:(lia) f Cf), (Gc i ltac:(lia) f Cf).
    destruct (casteljau_steps (knot (nc_knots q)) p lo hi t KL KH LT eq_refl (fun i => f (nth i (nc_cps q) d4)) D Hf p (le_n p)) as (X & _ & Y).
    destruct (Nat.le_gt_cases p i); [apply Y|apply X]; lia. }
  assert (forall ax i, (i < p + p)%nat -> bnd (D * qc 1 2) (coord (xyz (nth (S i) cps d4)) ax - coord (xyz (nth i cps d4)) ax)) as SX.
  { intros ax i Hi. destruct (coord_xyz ax) as (f & Cf & Ef). rewrite !Ef. apply ST; [exact Cf| |exact Hi].
    intros j Hj. rewrite <- !Ef. apply (CS j ax). lia. }
  split.
  - split; [exact PA|]. rewrite DA. split; [|split; [|split; [exact TA|]]].
    + rewrite KA, K. rewrite firstn_repeat_app. f_equal. rewrite Nat.add_1_r. cbn [repeat]. clear. induction p; [reflexivity|]. cbn [repeat app]. f_equal. exact IHp.
    + rewrite CA, firstn_length. lia.
    + intros i ax Hi. rewrite CA in Hi |- *. rewrite firstn_length in Hi. rewrite !nth_firstn_lt by lia. apply SX. lia.
  - split; [exact PB|]. rewrite DB. split; [|split; [|split; [exact TBB|]]].
    + rewrite KB, K. rewrite skipn_repeat_app. reflexivity.
    + rewrite CB, skipn_length. lia.
    + intros i ax Hi. rewrite CB in Hi |- *. rewrite skipn_length in Hi. rewrite !nth_skipn_add.
      replace (p + S i)%nat with (S (p + i)) by lia. apply SX. lia.
Qed.

(** ** The box of a piece *)
Lemma steps_far (g : nat -> Qc) D p : 0 <= D -> (forall i, (i < p)%nat -> bnd D (g (S i) - g i)) ->
  forall i j, (i <= j)%nat -> (j <= p)%nat -> bnd (Qc_of_nat p * D) (g j - g i).
Proof.
  intros D0 H i j Hij. assert (forall d, (i + d <= p)%nat -> bnd (Qc_of_nat d * D) (g (i + d)%nat - g i)) as K.
  { induction d as [|d IH]; intros Hd.
    - rewrite Nat.add_0_r. change (Qc_of_nat 0) with 0. split; qc_lra.
    - specialize (IH ltac:(lia)). specialize (H (i + d)%nat ltac:(lia)). replace (i + S d)%nat with (S (i + d)) by lia.
      assert (Qc_of_nat (S d) * D = Qc_of_nat d * D + D) as ->.
      { assert (Qc_of_nat (S d) = Qc_of_nat d + 1) as ->; [|ring].
        apply Qc_is_canon. unfold Qc_of_nat. rewrite this_plus, !this_of_Z, Nat2Z.inj_succ. unfold inject_Z, Qplus, Qeq. cbn. lia. }
      revert IH H. generalize (g (S (i + d))) (g (i + d)%nat) (g i) (Qc_of_nat d * D). intros x y z w [A1 A2] [B1 B2]. split; qc_lra. }
  intros Hj. specialize (K (j - i)%nat ltac:(lia)). replace (i + (j - i))%nat with j in K by lia.
  assert (Qc_of_nat (j - i) * D <= Qc_of_nat p * D) as M.
  { apply Qcmult_le_compat_r; [apply Qc_of_nat_le; lia|exact D0]. }
  revert K M. generalize (g j - g i) (Qc_of_nat (j - i) * D) (Qc_of_nat p * D). intros x y z [A B] M. split; qc_lra.
Qed.

Lemma index_min (g : nat -> Qc) p : exists i, (i <= p)%nat /\ forall j, (j <= p)%nat -> g i <= g j.
Proof.
  induction p as [|p (i & Hi & IH)].
  - exists 0%nat. split; [lia|]. intros j Hj. replace j with 0%nat by lia. apply Qcle_refl.
  - destruct (Qcle_or_lt (g i) (g (S p))) as [H|H].
    + exists i. split; [lia|]. intros j Hj. destruct (Nat.eq_dec j (S p)) as [->|]; [exact H|apply IH; lia].
    + exists (S p). split; [lia|]. intros j Hj. destruct (Nat.eq_dec j (S p)) as [->|]; [apply Qcle_refl|].
      apply Qclt_le_weak. apply Qclt_le_trans with (g i); [exact H|apply IH; lia].
Qed.

Lemma bez_box q p D : length (nc_cps q) = (p + 1)%nat -> tight_box q -> control_steps q D -> 0 <= D ->
  (exists x, inside (nc_aabb q) x) ->
  v3sq (v3sub (bmax (nc_aabb q)) (bmin (nc_aabb q))) <= qc 3 1 * (Qc_of_nat p * D * (Qc_of_nat p * D)).
Proof.
  intros L T S D0 (x0 & IX). set (b := nc_aabb q) in *. set (g := fun ax i => coord (xyz (nth i (nc_cps q) d4)) ax).
  assert (forall ax, exists m, forall i, (i <= p)%nat -> m <= g ax i /\ g ax i <= m + Qc_of_nat p * D) as MN.
  { intros ax. destruct (index_min (g ax) p) as (i & Hi & HM). exists (g ax i). intros j Hj. split; [apply HM; exact Hj|].
    assert (forall k, (k < p)%nat -> bnd D (g ax (Datatypes.S k) - g ax k)) as ST by (intros k Hk; apply (S k ax); lia).
    destruct (Nat.le_gt_cases i j).
    - destruct (steps_far (g ax) D p D0 ST i j) as [_ B]; [lia|lia|]. revert B. generalize (g ax j) (g ax i) (Qc_of_nat p * D). intros x y z B. qc_lra.
    - destruct (steps_far (g ax) D p D0 ST j i) as [B _]; [lia|lia|]. revert B. generalize (g ax j) (g ax i) (Qc_of_nat p * D). intros x y z B. qc_lra. }
  destruct (MN AX) as (mx & HX). destruct (MN AY) as (my & HY). destruct (MN AZ) as (mz & HZ). clear MN. set (e := Qc_of_nat p * D) in *.
  assert (subbox b (Box (V3 mx my mz) (V3 (mx + e) (my + e) (mz + e)))) as SB.
  { apply T. intros v Hv. destruct (In_nth _ _ d4 Hv) as (i & Hi & <-). intros ax.
    destruct ax; cbn [bmin bmax coord vx vy vz]; [apply (HX i)|apply (HY i)|apply (HZ i)]; lia. }
  assert (inside b (bmin b) /\ inside b (bmax b)) as [B1 B2].
  { split; intros ax; (split; [|]); try apply Qcle_refl; destruct (IX ax); eapply Qcle_trans; eassumption. }
  apply SB in B1. apply SB in B2.
  assert (0 <= e) as E0. { unfold e. apply ProofMinimize.Qcmul_nonneg; [|exact D0]. apply (Qc_of_nat_le 0 p). lia. }
  assert (forall ax, coord (bmin b) ax <= coord (bmax b) ax) as PR by (intros ax; destruct (IX ax); eapply Qcle_trans; eassumption).
  assert (forall ax, (coord (bmax b) ax - coord (bmin b) ax) * (coord (bmax b) ax - coord (bmin b) ax) <= e * e) as Q.
  { intros ax. destruct (B1 ax) as [U1 U2]. destruct (B2 ax) as [U3 U4]. specialize (PR ax). clear - U1 U2 U3 U4 PR E0. clearbody e. apply (sq_between 0); destruct ax; cbn [coord bmin bmax vx vy vz] in *; qc_lra. }
  pose proof (Q AX) as QX. pose proof (Q AY) as QY. pose proof (Q AZ) as QZ. unfold v3sq, v3sub. cbn [coord vx vy vz] in *.
  revert QX QY QZ. generalize (e * e). intros w.
  generalize ((vx (bmax b) - vx (bmin b)) * (vx (bmax b) - vx (bmin b))) ((vy (bmax b) - vy (bmin b)) * (vy (bmax b) - vy (bmin b))) ((vz (bmax b) - vz (bmin b)) * (vz (bmax b) - vz (bmin b))).
  intros x y z QX QY QZ. qc_lra.
Qed.

(** ** Success *)
Section Run.
Variable len : vec3 -> option Qc.

Lemma scaled_le (a b e s d r : Qc) : 0 <= a -> 0 < d -> 0 <= s -> s <= qc 2 1 * tol12 -> e * d = b * s -> 0 <= b ->
  qc 3 1 * ((a * b * (qc 2 1 * tol12)) * (a * b * (qc 2 1 * tol12))) <= (r * d) * (r * d) -> qc 3 1 * (a * e * (a * e)) <= r * r.
Proof.
  intros A D S S2 E B H.
  assert (0 < d * d) as DD by (apply ProofMinimize.Qcmul_pos; exact D).
  apply Qcmult_lt_0_le_reg_r with (d * d); [exact DD|].
  replace (r * r * (d * d)) with (r * d * (r * d)) by ring.
  apply Qcle_trans with (2 := H).
  replace (qc 3 1 * (a * e * (a * e)) * (d * d)) with (qc 3 1 * ((a * (e * d)) * (a * (e * d)))) by ring. rewrite E.
  replace (a * (b * s)) with (a * b * s) by ring. set (w := a * b). assert (0 <= w) as W by (apply ProofMinimize.Qcmul_nonneg; assumption).
  assert (w * s <= w * (qc 2 1 * tol12)) as M. { rewrite !(Qcmult_comm w). apply Qcmult_le_compat_r; assumption. }
  assert (0 <= w * s) as M0 by (apply ProofMinimize.Qcmul_nonneg; assumption).
  assert (w * s * (w * s) <= w * (qc 2 1 * tol12) * (w * (qc 2 1 * tol12))) as M2.
  { apply (sq_between 0); revert M M0; generalize (w * s) (w * (qc 2 1 * tol12)); intros; qc_lra. }
  rewrite !(Qcmult_comm (qc 3 1)). apply Qcmult_le_compat_r; [exact M2|discriminate].
Qed.

Lemma bez_small c q lo hi Dq D d tol r : bez_piece c q lo hi Dq -> 0 < d -> 0 <= D -> Dq * d = D * (hi - lo) ->
  (hi - lo) * qc 1 2 <= tol12 -> recognised len tol r ->
  qc 3 1 * ((Qc_of_nat (nc_degree q) * D * (qc 2 1 * tol12)) * (Qc_of_nat (nc_degree q) * D * (qc 2 1 * tol12))) <= (r * d) * (r * d) ->
  ccx_small len (nc_aabb q) tol = true.
Proof.
  intros (P & _ & L & T & S) D0 DD E HS R H. destruct (piece_interval _ _ _ _ P) as (_ & LT).
  assert (0 <= Dq) as DQ.
  { assert (0 <= Dq * d). { rewrite E. apply ProofMinimize.Qcmul_nonneg; [exact DD|clear - LT; qc_lra]. }
    apply Qcmult_lt_0_le_reg_r with d; [exact D0|]. rewrite Qcmult_0_l. assumption. }
  assert (v3sq (v3sub (bmax (nc_aabb q)) (bmin (nc_aabb q))) <= r * r) as K.
  { eapply Qcle_trans; [apply (bez_box q (nc_degree q) Dq L T S DQ)|].
    - destruct (piece_point _ _ _ _ lo P (Qcle_refl _) (Qclt_le_weak _ _ LT)) as (pt & _ & _ & I). eauto.
    - apply (scaled_le _ D Dq (hi - lo) d r); try assumption.
      + apply (Qc_of_nat_le 0). lia. + clear - LT; qc_lra. + revert HS. generalize tol12. intros e HS. clear - HS. qc_lra. }
  unfold ccx_small. destruct (R (v3sub (bmax (nc_aabb q)) (bmin (nc_aabb q)))) as (l & -> & HL).
  - eapply Qcle_trans; [|exact K]. match goal with |- ?x <= ?y => replace x with y; [apply Qcle_refl|] end. unfold v3distSq, v3sq, v3sub. cbn [vx vy vz]. ring.
  - apply Qcltb_iff. exact HL.
Qed.

Lemma bez_success c1 c2 tol r d D1 D2 : bisectable c1 -> bisectable c2 -> 0 < d -> 0 <= D1 -> 0 <= D2 ->
  enough c1 D1 d r -> enough c2 D2 d r -> recognised len tol r ->
  forall fuel q1 q2 l1 h1 l2 h2 E1 E2 result, bez_piece c1 q1 l1 h1 E1 -> bez_piece c2 q2 l2 h2 E2 -> h1 - l1 = h2 - l2 ->
  E1 * d = D1 * (h1 - l1) -> E2 * d = D2 * (h2 - l2) ->
  ccx len fuel q1 q2 tol result <> Some (Throw EInvalidArgument).
Proof.
  intros B1 B2 D0 DD1 DD2 N1 N2 R. induction fuel as [|f IH]; intros q1 q2 l1 h1 l2 h2 E1 E2 result P1 P2 EQ EE1 EE2; [discriminate|].
  rewrite ccx_eq. destruct (aabb_intersects _ _); [|discriminate].
  assert (nc_degree q1 = nc_degree c1) as G1 by (destruct P1 as ((? & _ & X & _) & _); exact X).
  assert (nc_degree q2 = nc_degree c2) as G2 by (destruct P2 as ((? & _ & X & _) & _); exact X).
  destruct (Qcle_or_lt ((h1 - l1) * qc 1 2) tol12) as [LE|GT].
  { rewrite (bez_small c1 q1 l1 h1 E1 D1 d tol r P1 D0 DD1 EE1 LE R) by (rewrite G1; exact N1).
    rewrite EQ in LE. rewrite (bez_small c2 q2 l2 h2 E2 D2 d tol r P2 D0 DD2 EE2 LE R) by (rewrite G2; exact N2). discriminate. }
  destruct (_ && _); [discriminate|]. fold (midpoint q1). fold (midpoint q2).
  assert (tol12 < (h2 - l2) * qc 1 2) as GT2 by (rewrite <- EQ; exact GT).
  destruct (piece_interval _ _ _ _ (proj1 P1)) as (I1 & _). destruct (piece_interval _ _ _ _ (proj1 P2)) as (I2 & _).
  assert (midpoint q1 = (h1 - l1) * qc 1 2 + l1) as -> by (unfold midpoint; rewrite I1; reflexivity).
  assert (midpoint q2 = (h2 - l2) * qc 1 2 + l2) as -> by (unfold midpoint; rewrite I2; reflexivity).
  destruct (bez_split _ _ _ _ _ B1 P1 GT) as (a1 & b1 & -> & PA1 & PB1). destruct (bez_split _ _ _ _ _ B2 P2 GT2) as (a2 & b2 & -> & PA2 & PB2).
  assert (forall l h, (h - l) * qc 1 2 + l - l = (h - l) * qc 1 2) as EA by (intros; ring).
  assert (forall l h, h - ((h - l) * qc 1 2 + l) = (h - l) * qc 1 2) as EB by (intros l h; apply Qcle_antisym; clear; qc_lra).
  assert (forall E D s, E * d = D * s -> E * qc 1 2 * d = D * (s * qc 1 2)) as EH.
  { intros E D s H. replace (E * qc 1 2 * d) with (E * d * qc 1 2) by ring. rewrite H. ring. }
  unfold ccx_then.
  assert (forall x1 x2 m1 n1 m2 n2 r0, bez_piece c1 x1 m1 n1 (E1 * qc 1 2) -> bez_piece c2 x2 m2 n2 (E2 * qc 1 2) ->
    n1 - m1 = (h1 - l1) * qc 1 2 -> n2 - m2 = (h2 - l2) * qc 1 2 -> ccx len f x1 x2 tol r0 <> Some (Throw EInvalidArgument)) as Z.
  { intros x1 x2 m1 n1 m2 n2 r0 X1 X2 Y1 Y2. eapply IH; [exact X1|exact X2|rewrite Y1, Y2, EQ; reflexivity|rewrite Y1; apply EH; exact EE1|rewrite Y2; apply EH; exact EE2]. }
  pose proof (fun r0 => Z _ _ _ _ _ _ r0 PA1 PA2 (EA _ _) (EA _ _)) as Z1.
  pose proof (fun r0 => Z _ _ _ _ _ _ r0 PB1 PB2 (EB _ _) (EB _ _)) as Z2.
  pose proof (fun r0 => Z _ _ _ _ _ _ r0 PA1 PB2 (EA _ _) (EB _ _)) as Z3.
  pose proof (fun r0 => Z _ _ _ _ _ _ r0 PB1 PA2 (EB _ _) (EA _ _)) as Z4.
  specialize (Z1 result). destruct (ccx len f a1 a2 tol result) as [[r1| |]|]; try exact Z1.
  specialize (Z2 r1). destruct (ccx len f b1 b2 tol r1) as [[r2| |]|]; try exact Z2.
  specialize (Z3 r2). destruct (ccx len f a1 b2 tol r2) as [[r3| |]|]; try exact Z3.
  apply Z4.
Qed.

(** ** Failure *)
Lemma never_ok c1 c2 tol r pt u1 u2 : bisectable c1 -> bisectable c2 -> shorter len tol r -> long_parts c1 r ->
  evaluate c1 u1 = Ok pt -> evaluate c2 u2 = Ok pt ->
  forall fuel q1 q2 l1 h1 l2 h2 result out, piece c1 q1 l1 h1 -> piece c2 q2 l2 h2 -> l1 <= u1 -> u1 <= h1 -> l2 <= u2 -> u2 <= h2 ->
  tol12 < h1 - l1 -> ccx len fuel q1 q2 tol result <> Some (Ok out).
Proof.
  intros B1 B2 SH LP E1 E2. induction fuel as [|f IH]; intros q1 q2 l1 h1 l2 h2 result out P1 P2 U1 U2 U3 U4 LG H; [discriminate|].
  destruct (piece_point _ _ _ _ _ P1 U1 U2) as (p & _ & Ep & Ip). assert (p = pt) as -> by congruence.
  destruct (piece_point _ _ _ _ _ P2 U3 U4) as (p & _ & Ep2 & Ip2). assert (p = pt) as -> by congruence.
  pose proof (meet_boxes _ _ _ Ip Ip2) as X.
  apply ccx_cases in H. destruct H as [(X' & _)|[(_ & S1 & S2 & ->)|(_ & _ & a1 & b1 & a2 & b2 & r1 & r2 & r3 & S1 & S2 & H1 & H2 & H3 & H4)]]; [congruence| |].
  - destruct (piece_interval _ _ _ _ P1) as (_ & LT).
    destruct (piece_point _ _ _ _ l1 P1 (Qcle_refl _) (Qclt_le_weak _ _ LT)) as (pa & _ & Ea & Ia).
    destruct (piece_point _ _ _ _ h1 P1 (Qclt_le_weak _ _ LT) (Qcle_refl _)) as (pb & _ & Eb & Ib).
    assert (halving (fst (nc_interval c1)) (snd (nc_interval c1)) l1 h1) as HV by (destruct P1 as (? & _ & _ & _ & _ & _ & _ & _ & HV & _); exact HV).
    specialize (LP l1 h1 pa pb HV LG Ea Eb). revert LP. apply Qclt_not_le. exact (small_diameter _ _ _ _ _ _ SH S1 Ia Ib).
  - destruct (piece_split _ _ _ _ B1 P1) as (M1 & K1). destruct (piece_split _ _ _ _ B2 P2) as (M2 & K2). cbv zeta in *.
    fold (midpoint q1) in S1. fold (midpoint q2) in S2. rewrite M1 in S1. rewrite M2 in S2.
    destruct K1 as [(K1 & _)|(GT & a & b & K1 & PA1 & PB1)]; [rewrite K1 in S1; discriminate|].
    rewrite K1 in S1. assert (a = a1 /\ b = b1) as [-> ->] by (split; congruence).
    destruct K2 as [(K2 & _)|(_ & a & b & K2 & PA2 & PB2)]; [rewrite K2 in S2; discriminate|].
    rewrite K2 in S2. assert (a = a2 /\ b = b2) as [-> ->] by (split; congruence).
    assert (tol12 < (h1 - l1) * qc 1 2 + l1 - l1) as GA by (revert GT; generalize tol12; intros e GT; clear - GT; qc_lra).
    assert (tol12 < h1 - ((h1 - l1) * qc 1 2 + l1)) as GB by (revert GT; generalize tol12; intros e GT; clear - GT; qc_lra).
    destruct (Qcle_or_lt u1 ((h1 - l1) * qc 1 2 + l1)) as [C1|C1]; destruct (Qcle_or_lt u2 ((h2 - l2) * qc 1 2 + l2)) as [C2|C2];
      try apply Qclt_le_weak in C1; try apply Qclt_le_weak in C2.
    + eapply (IH a1 a2); [exact PA1|exact PA2|assumption|assumption|assumption|assumption|exact GA|exact H1].
    + eapply (IH a1 b2); [exact PA1|exact PB2|assumption|assumption|assumption|assumption|exact GA|exact H3].
    + eapply (IH b1 a2); [exact PB1|exact PA2|assumption|assumption|assumption|assumption|exact GB|exact H4].
    + eapply (IH b1 b2); [exact PB1|exact PB2|assumption|assumption|assumption|assumption|exact GB|exact H2].
Qed.

(** ** Top statements *)
Lemma archimedes (x : Qc) : exists k, x <= pow2 k * tol12.
Proof.
  destruct (floor_bounds (x / tol12)) as [_ F]. exists (Z.to_nat (qc_floor (x / tol12) + 1)).
  apply Qcle_trans with (Qc_of_nat (Z.to_nat (qc_floor (x / tol12) + 1)) * tol12); [|apply Qcmult_le_compat_r; [apply pow2_ge|discriminate]].
  assert (tol12 <> 0) as N by discriminate.
  replace x with (x / tol12 * tol12) at 1 by (unfold Qcdiv; rewrite <- Qcmult_assoc, (Qcmult_comm (/ tol12)), Qcmult_inv_r by exact N; apply Qcmult_1_r).
  apply Qcmult_le_compat_r; [|discriminate]. apply Qcle_trans with (Qc_of_Z (qc_floor (x / tol12)) + 1); [apply Qclt_le_weak; exact F|].
  unfold Qc_of_nat. assert (Qc_of_Z (qc_floor (x / tol12)) + 1 = Qc_of_Z (qc_floor (x / tol12) + 1)) as ->.
  { apply Qc_is_canon. rewrite this_plus, !this_of_Z. unfold inject_Z, Qplus, Qeq. cbn. lia. }
  apply ProofPolyline.Qc_of_Z_le. lia.
Qed.

Lemma ccx_returns c1 c2 tol result : bisectable c1 -> bisectable c2 ->
  (exists out, eventually (fun n => ccx len n c1 c2 tol result) (Ok out)) \/ eventually (fun n => ccx len n c1 c2 tol result) (Throw EInvalidArgument).
Proof.
  intros B1 B2. destruct (archimedes (snd (nc_interval c1) - fst (nc_interval c1))) as (k & Hk).
  destruct (ccx_fine len c1 c2 tol B1 B2 k c1 c2 _ _ _ _ result (bisectable_piece _ B1) (bisectable_piece _ B2) Hk) as [(out & E)|E].
  - left. exists out, (S k). intros m Hm. eapply ccx_mono; eassumption.
  - right. exists (S k). intros m Hm. eapply ccx_mono; eassumption.
Qed.

Lemma ccx_throws c1 c2 tol r u1 u2 result : bisectable c1 -> bisectable c2 -> crossing c1 c2 u1 u2 -> shorter len tol r ->
  tol12 < snd (nc_interval c1) - fst (nc_interval c1) -> long_parts c1 r ->
  eventually (fun n => ccx len n c1 c2 tol result) (Throw EInvalidArgument).
Proof.
  intros B1 B2 ((W1 & W2) & (W3 & W4) & pt & E1 & E2) SH LG LP.
  destruct (ccx_returns c1 c2 tol result B1 B2) as [(out & n & H)|H]; [|exact H]. exfalso.
  specialize (H n (le_n n)). revert H.
  apply (never_ok c1 c2 tol r pt u1 u2 B1 B2 SH LP E1 E2 n c1 c2 _ _ _ _ result out (bisectable_piece _ B1) (bisectable_piece _ B2) W1 W2 W3 W4 LG).
Qed.

Lemma bezier_bisectable c a b : bezier c a b -> bisectable c.
Proof.
  intros (K & L & I & LC & D & W & BX). destruct (knot_bez a b (nc_degree c)) as [KL KH]. rewrite <- K in KL, KH.
  exists (nc_degree c).
  assert (valid_knots (nc_degree c) (nc_degree c) (nc_knots c)) as V.
  { split; [lia|]. split; [rewrite K, app_length, !repeat_length; lia|]. split.
    - apply mono_sorted. intros i j Hij. destruct (Nat.le_gt_cases j (nc_degree c)).
      + rewrite !KL by lia. apply Qcle_refl.
      + rewrite (KH j) by lia. destruct (Nat.le_gt_cases i (nc_degree c)); [rewrite KL by lia; apply Qclt_le_weak; exact L|rewrite KH by lia; apply Qcle_refl].
    - rewrite KL, KH by lia. exact L. }
  pose proof V as (_ & V2 & _).
  split; [split; [lia|split; [exact V|lia]]|]. split; [lia|]. split; [exact W|].
  split; [unfold interval_current; rewrite I, V2, KL, KH by lia; reflexivity|].
  split; [split; intros i; intros; rewrite ?KL, ?KH by lia; rewrite ?KL, ?KH by lia; reflexivity|].
  split; [exact BX|]. rewrite KL, KH by lia.
  assert (forall t, a < t -> t < b -> ~ In t (nc_knots c)) as NI.
  { intros t T1 T2 X. rewrite K in X. apply in_app_or in X. destruct X as [X|X]; apply repeat_spec in X; subst t; qc_lra. }
  split; [intros t T1 T2; rewrite mult_not by (apply NI; assumption); lia|].
  intros x y HV HT z Hz. 
  assert (a <= x /\ y <= b) as [X1 X2].
  { clear - HV L. assert (a <= x /\ x <= y /\ y <= b) as (Q1 & _ & Q2); [|auto]. induction HV as [|x y HV (A & B & C)|x y HV (A & B & C)]; [repeat split; try apply Qcle_refl; apply Qclt_le_weak; exact L| |]; repeat split; qc_lra. }
  right. rewrite K in Hz. apply in_app_or in Hz. revert HT. generalize tol12. intros e HT. destruct Hz as [Hz|Hz]; apply repeat_spec in Hz; subst z; [right|left]; clear - X1 X2 HT; qc_lra.
Qed.

Lemma ccx_bezier_returns c1 c2 a1 a2 d tol r D1 D2 result :
  bezier c1 a1 (a1 + d) -> bezier c2 a2 (a2 + d) -> tight_box c1 -> tight_box c2 -> control_steps c1 D1 -> control_steps c2 D2 ->
  0 <= D1 -> 0 <= D2 -> enough c1 D1 d r -> enough c2 D2 d r -> recognised len tol r ->
  exists out, eventually (fun n => ccx len n c1 c2 tol result) (Ok out).
Proof.
  intros Z1 Z2 T1 T2 S1 S2 P1 P2 N1 N2 R. pose proof (bezier_bisectable _ _ _ Z1) as B1. pose proof (bezier_bisectable _ _ _ Z2) as B2.
  destruct (ccx_returns c1 c2 tol result B1 B2) as [H|(n & H)]; [exact H|]. exfalso. specialize (H n (le_n n)). revert H.
  destruct Z1 as (K1 & L1 & I1 & LC1 & _). destruct Z2 as (K2 & L2 & I2 & LC2 & _).
  assert (0 < d) as D0 by (clear - L1; qc_lra).
  pose proof (bisectable_piece _ B1) as Q1. pose proof (bisectable_piece _ B2) as Q2. rewrite I1 in Q1. rewrite I2 in Q2. cbn [fst snd] in *.
  apply (bez_success c1 c2 tol r d D1 D2 B1 B2 D0 P1 P2 N1 N2 R n c1 c2 a1 (a1 + d) a2 (a2 + d) D1 D2 result).
  - split; [exact Q1|]. auto. - split; [exact Q2|]. auto. - ring. - ring. - ring.
Qed.
End Run.
