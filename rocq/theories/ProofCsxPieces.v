(** Pieces of curves and surfaces cut at arbitrary parameters. *)
From Coq Require Import List ZArith QArith Qcanon Bool Lia Lqa.
From Verif Require Import Base BaseFacts LoopFacts ModelVec ModelAabb SpecAabb ProofAabb ModelNurbs ModelSurface ModelCsx SpecNurbs SpecCurve SpecSurface SpecCcx SpecGjk SpecCsx
  ProofBspline ProofInsertion ProofNurbs ProofInsertCurve ProofInsertKnot ProofCurve ProofSplit ProofNurbsTop ProofMinimize ProofDecompose ProofCcx
  ProofSurfaceSums ProofSurface ProofSurfaceOps ProofSurfaceTop.
Import ListNotations.
Open Scope Qc_scope.

(** [U] is what is left of the knots [K] between [lo] and [hi] *)
Definition kpiece (K U : list Qc) (n p : nat) (lo hi : Qc) : Prop :=
  valid_knots n p U /\ clamped n p U /\ knot U 0 = lo /\ knot U (n + 1) = hi /\
  (forall x, In x U -> x = lo \/ x = hi \/ (In x K /\ lo < x /\ x < hi)) /\
  (forall t, lo < t -> t < hi -> (multiplicity U t <= p)%nat).

Lemma kpiece_ends K U n p lo hi : kpiece K U n p lo hi ->
  knot U p = lo /\ lo < hi /\ (knot U 0, knot U (length U - 1)) = (lo, hi).
Proof.
  intros ((V1 & V2 & V3 & V4) & [C1 C2] & A & B & _). split; [rewrite <- A; apply C1; lia|].
  pose proof (sorted_mono _ V3) as M. split.
  - rewrite <- A, <- B. apply Qcle_lt_trans with (knot U n); [apply M; lia|exact V4].
  - rewrite A. f_equal. rewrite V2. replace (n + p + 2 - 1)%nat with (n + p + 1)%nat by lia. rewrite <- B. apply C2; lia.
Qed.

Lemma split_left_eq U n p k t : valid_knots n p U -> (p <= k <= n)%nat ->
  split_left U p k t = firstn (k + 1) U ++ repeat t (p - multiplicity U t) ++ [t].
Proof.
  intros (V1 & V2 & _) Hk. unfold split_left, ins_knots. set (r := (p - multiplicity U t)%nat).
  rewrite (app_assoc _ (repeat t r) [t]). f_equal.
  rewrite firstn_app. rewrite firstn_length, Nat.min_l by lia. replace (k + r + 1 - (k + 1))%nat with r by lia.
  rewrite firstn_app, repeat_length, Nat.sub_diag. rewrite firstn_O, app_nil_r.
  rewrite (firstn_all2 (firstn _ _)) by (rewrite firstn_length; lia). rewrite (firstn_all2 (repeat _ _)) by (rewrite repeat_length; lia). reflexivity.
Qed.
Lemma split_right_eq U n p k t : valid_knots n p U -> (p <= k <= n)%nat ->
  split_right U p k t = repeat t (p + 1) ++ skipn (k + 1) U.
Proof.
  intros (V1 & V2 & _) Hk. unfold split_right, ins_knots. set (r := (p - multiplicity U t)%nat). f_equal.
  rewrite skipn_app. rewrite firstn_length, Nat.min_l by lia. replace (k + r + 1 - (k + 1))%nat with r by lia.
  rewrite (skipn_all2 (firstn _ _)) by (rewrite firstn_length; lia). cbn [app].
  rewrite skipn_app, repeat_length, Nat.sub_diag. rewrite (skipn_all2 (repeat _ _)) by (rewrite repeat_length; lia). reflexivity.
Qed.

Lemma kpiece_left K U n p k t lo hi n1 : kpiece K U n p lo hi -> (p <= k <= n)%nat -> knot U k <= t -> t < knot U (S k) -> lo < t -> t < hi ->
  let U1 := firstn (k + 1) U ++ repeat t (p - multiplicity U t) ++ [t] in
  valid_knots n1 p U1 -> knot U1 p = lo -> knot U1 (n1 + 1) = t -> kpiece K U1 n1 p lo t.
Proof.
  intros ((V1 & V2 & V3 & V4) & C & K0 & K1 & HK & HM) Hk S1 S2 T1 T2 U1 VA L1 R1. pose proof (sorted_mono _ V3) as M.
  pose proof VA as (_ & VA2 & VA3 & _).
  assert (knot U1 0 = lo) as E1.
  { unfold U1, knot. rewrite app_nth1 by (rewrite firstn_length; lia). rewrite nth_firstn_lt by lia.
    rewrite <- K0. unfold knot. apply nth_indep. lia. }
  assert (knot U1 (n1 + p + 1) = t) as E1'.
  { replace (n1 + p + 1)%nat with (length U1 - 1)%nat by lia. unfold U1.
    rewrite app_assoc. rewrite app_length. cbn [length]. unfold knot.
    rewrite app_nth2 by lia. match goal with |- nth ?i _ _ = _ => replace i with 0%nat by lia end. reflexivity. }
  split; [exact VA|]. split; [apply (clamped_by_ends n1 _ _ lo t); assumption|]. split; [exact E1|]. split; [exact R1|]. split.
  - intros x Hx.
    assert (x <= t) as LE.
    { destruct (In_nth _ _ 0 Hx) as (i & Hi & Ei). rewrite <- knot_nth in Ei by lia. rewrite <- Ei.
      rewrite <- E1'. apply (sorted_mono _ VA3). lia. }
    unfold U1 in Hx. rewrite !in_app_iff in Hx. destruct Hx as [Hx|[Hx|[<-|[]]]]; [|apply repeat_spec in Hx; auto|auto].
    assert (In x U) as Hq by (rewrite <- (firstn_skipn (k + 1) U); apply in_or_app; left; exact Hx).
    destruct (HK x Hq) as [->|[->|(X & A & B)]]; [auto| |].
    + exfalso. qc_lra.
    + destruct (Qc_eq_dec x t) as [->|NE]; [auto|]. right; right. repeat split; auto. apply Qcle_lt_or_eq in LE. destruct LE; [assumption|contradiction].
  - intros t' A1 A2. unfold U1. rewrite !mult_app. rewrite mult_repeat_other by (intros ->; qc_lra).
    rewrite (mult_not [t]) by (intros [<-|[]]; qc_lra). pose proof (mult_firstn U (k + 1) t').
    specialize (HM t' A1 ltac:(qc_lra)). lia.
Qed.
Lemma kpiece_right K U n p k t lo hi n2 : kpiece K U n p lo hi -> (p <= k <= n)%nat -> knot U k <= t -> t < knot U (S k) -> lo < t -> t < hi ->
  let U2 := repeat t (p + 1) ++ skipn (k + 1) U in
  valid_knots n2 p U2 -> knot U2 p = t -> knot U2 (n2 + 1) = hi -> kpiece K U2 n2 p t hi.
Proof.
  intros ((V1 & V2 & V3 & V4) & C & K0 & K1 & HK & HM) Hk S1 S2 T1 T2 U2 VB L2 R2. pose proof (sorted_mono _ V3) as M.
  pose proof VB as (_ & VB2 & _ & _).
  assert (knot U2 0 = t) as E3. { unfold U2. rewrite Nat.add_1_r. reflexivity. }
  assert (knot U2 (n2 + p + 1) = hi) as E4.
  { replace (n2 + p + 1)%nat with (length U2 - 1)%nat by lia. unfold U2.
    unfold knot. rewrite app_length, repeat_length, skipn_length.
    rewrite app_nth2 by (rewrite repeat_length; lia). rewrite repeat_length. rewrite nth_skipn_add.
    destruct C as [_ C2]. rewrite <- K1. rewrite <- (C2 (n + p + 1)%nat) by lia. unfold knot.
    match goal with |- nth ?i _ _ = nth ?j _ _ => replace i with j by lia end. apply nth_indep. lia. }
  split; [exact VB|]. split; [apply (clamped_by_ends n2 _ _ t hi); assumption|]. split; [exact E3|]. split; [exact R2|]. split.
  - intros x Hx. unfold U2 in Hx. rewrite !in_app_iff in Hx. destruct Hx as [Hx|Hx]; [apply repeat_spec in Hx; auto|].
    assert (t < x) as Hxt.
    { destruct (In_nth _ _ 0 Hx) as (i & Hi & Ei). rewrite skipn_length in Hi. rewrite nth_skipn_add in Ei.
      rewrite <- knot_nth in Ei by lia. rewrite <- Ei. apply Qclt_le_trans with (knot U (S k)); [exact S2|apply M; lia]. }
    assert (In x U) as Hq by (rewrite <- (firstn_skipn (k + 1) U); apply in_or_app; right; exact Hx).
    destruct (HK x Hq) as [->|[->|(X & A & B)]]; [|auto|].
    + exfalso. qc_lra.
    + right; right. auto.
  - intros t' A1 A2. unfold U2. rewrite !mult_app. rewrite mult_repeat_other by (intros ->; qc_lra).
    pose proof (mult_skipn U (k + 1) t').
    specialize (HM t' ltac:(qc_lra) A2). lia.
Qed.

(** inner knots kept clear of the cut *)
Definition clear_of (K : list Qc) (lo hi t : Qc) : Prop :=
  forall k, In k K -> lo < k -> k < hi -> k = t \/ tol12 < k - t \/ tol12 < t - k.

Lemma kpiece_separated K U n p lo hi t : kpiece K U n p lo hi -> clear_of K lo hi t -> tol12 < t - lo -> tol12 < hi - t -> separated U t.
Proof.
  intros (_ & _ & _ & _ & HK & _) CL A B x Hx. destruct (HK x Hx) as [->|[->|(X & Y & Z)]]; [auto|auto|]. apply CL; assumption.
Qed.

(** ** Curves *)
Definition cpiece (c q : ncurve) (lo hi : Qc) : Prop :=
  exists m, good_curve q m /\ nc_degree q = nc_degree c /\ unit_weights (nc_cps q) /\ interval_current q /\
    kpiece (nc_knots c) (nc_knots q) m (nc_degree q) lo hi /\
    (forall u, lo <= u -> u <= hi -> exists pt, evaluate q u = Ok pt /\ evaluate c u = Ok pt).

Lemma cpiece_interval c q lo hi : cpiece c q lo hi -> nc_interval q = (lo, hi) /\ lo < hi.
Proof.
  intros (m & G & D & W & I & K & _). destruct (kpiece_ends _ _ _ _ _ _ K) as (_ & A & B). rewrite I, B. auto.
Qed.

Lemma split_near q t lo hi : nc_interval q = (lo, hi) -> lo <= t -> t <= hi -> t - lo <= tol12 \/ hi - t <= tol12 ->
  nc_split q t false = Throw EInvalidArgument.
Proof.
  intros EI A B H. unfold nc_split. rewrite EI.
  assert ((t <=? lo) || (hi <=? t) || (Qcabs (t - lo) <=? lit_1em12) || (Qcabs (t - hi) <=? lit_1em12) = true) as ->; [|reflexivity].
  change lit_1em12 with tol12. destruct H as [H|H].
  - assert (Qcabs (t - lo) <=? tol12 = true) as -> by (qcb; destruct (Qcabs_cases (t - lo)) as [[P ->]|[P ->]]; qc_lra).
    rewrite !orb_true_r. reflexivity.
  - assert (Qcabs (t - hi) <=? tol12 = true) as -> by (qcb; destruct (Qcabs_cases (t - hi)) as [[P ->]|[P ->]]; qc_lra).
    rewrite !orb_true_r. reflexivity.
Qed.

Lemma cpiece_split c q lo hi t : (1 <= nc_degree c)%nat -> cpiece c q lo hi -> lo <= t -> t <= hi -> clear_of (nc_knots c) lo hi t ->
  (nc_split q t false = Throw EInvalidArgument /\ (t - lo <= tol12 \/ hi - t <= tol12)) \/
  (tol12 < t - lo /\ tol12 < hi - t /\ exists a b, nc_split q t false = Ok (a, b) /\ cpiece c a lo t /\ cpiece c b t hi).
Proof.
  intros H1 HP B1 B2 CL. destruct (cpiece_interval _ _ _ _ HP) as (EI & LT).
  destruct (Qcleb_spec (t - lo) tol12) as [LE|GT]; [left; split; [eapply split_near; eauto|auto]|].
  destruct (Qcleb_spec (hi - t) tol12) as [LE|GT']; [left; split; [eapply split_near; eauto|auto]|].
  apply Qcnot_le_lt in GT, GT'. right. split; [exact GT|]. split; [exact GT'|].
  pose proof tol12_pos as TP. assert (lo < t /\ t < hi) as [T1 T2] by (split; qc_lra).
  destruct HP as (m & G & D & W & I & K & HE). pose proof G as (L & V & H8).
  destruct (kpiece_ends _ _ _ _ _ _ K) as (E2 & _ & _). pose proof K as (_ & _ & K0 & K1 & _ & HM).
  pose proof (kpiece_separated _ _ _ _ _ _ _ K CL GT GT') as SEP.
  destruct (domain_span m (nc_degree q) (nc_knots q) t V) as (k & Hk & S1 & S2).
  { rewrite E2. apply Qclt_le_weak. exact T1. } { rewrite K1. exact T2. }
  destruct (split_ok q m t k) as (a & b & E & P1 & P2 & KA & KB & _); try assumption.
  { rewrite D. rewrite D in H8. lia. } { rewrite E2. exact T1. } { rewrite K1. exact T2. } { apply HM; assumption. }
  rewrite E2 in P1. rewrite K1 in P2.
  apply (part_traces q a m) in P1; try assumption; [|rewrite E2; apply Qcle_refl|rewrite K1; apply Qclt_le_weak; exact T2].
  apply (part_traces q b m) in P2; try assumption; [|rewrite E2; apply Qclt_le_weak; exact T1|rewrite K1; apply Qcle_refl].
  destruct P1 as (m1 & G1 & D1 & W1 & I1 & L1 & R1 & TR1). destruct P2 as (m2 & G2 & D2 & W2 & I2 & L2 & R2 & TR2).
  exists a, b. split; [exact E|]. pose proof G1 as (_ & VA & _). pose proof G2 as (_ & VB & _).
  split.
  - exists m1. split; [exact G1|]. split; [congruence|]. split; [exact W1|]. split; [exact I1|]. split.
    + rewrite D1 in *. rewrite KA in *. eapply kpiece_left; eauto.
    + intros u U1 U2. destruct (TR1 u U1 U2) as (pt & X1 & X2 & X3). destruct (HE u U1 ltac:(qc_lra)) as (pt' & Y1 & Y2).
      assert (pt = pt') as <- by congruence. exists pt. auto.
  - exists m2. split; [exact G2|]. split; [congruence|]. split; [exact W2|]. split; [exact I2|]. split.
    + rewrite D2 in *. rewrite KB in *. eapply kpiece_right; eauto.
    + intros u U1 U2. destruct (TR2 u U1 U2) as (pt & X1 & X2 & X3). destruct (HE u ltac:(qc_lra) U2) as (pt' & Y1 & Y2).
      assert (pt = pt') as <- by congruence. exists pt. auto.
Qed.

(** ** Surfaces *)
Definition spiece (s q : nsurf) (ul uh vl vh : Qc) : Prop :=
  exists n m, good_surf q n m /\ ns_du q = ns_du s /\ ns_dv q = ns_dv s /\ positive_surf q /\ intervals_current q /\
    kpiece (ns_ku s) (ns_ku q) n (ns_du q) ul uh /\ kpiece (ns_kv s) (ns_kv q) m (ns_dv q) vl vh /\
    (forall u v, ul <= u -> u <= uh -> vl <= v -> v <= vh -> exists pt, ns_evaluate q u v = Ok pt /\ ns_evaluate s u v = Ok pt).

Lemma spiece_interval s q ul uh vl vh : spiece s q ul uh vl vh -> ns_iu q = (ul, uh) /\ ns_iv q = (vl, vh) /\ ul < uh /\ vl < vh.
Proof.
  intros (n & m & G & D1 & D2 & W & (I1 & I2) & K & L & _).
  destruct (kpiece_ends _ _ _ _ _ _ K) as (_ & A & B). destruct (kpiece_ends _ _ _ _ _ _ L) as (_ & A' & B'). rewrite I1, I2, B, B'. auto.
Qed.

(** one patch inside another: evaluation agrees *)
Lemma sub_eval part q n m n' m' ul uh vl vh : good_surf q n m -> positive_surf q ->
  lo_u q <= ul -> uh <= hi_u q n -> lo_v q <= vl -> vh <= hi_v q m ->
  sub_surf part q n m n' m' ul uh vl vh ->
  forall u v, ul <= u -> u <= uh -> vl <= v -> v <= vh -> exists pt, ns_evaluate part u v = Ok pt /\ ns_evaluate q u v = Ok pt.
Proof.
  intros G W A1 A2 A3 A4 S. destruct (sub_patch _ _ _ _ _ _ _ _ _ _ G W A1 A2 A3 A4 S) as (n0 & m0 & _ & _ & _ & _ & _ & _ & _ & _ & _ & H). exact H.
Qed.

Lemma edge_near iv t tol : 0 <= tol -> fst iv <= t -> t <= snd iv -> t - fst iv <= tol \/ snd iv - t <= tol -> at_edge t iv tol = true.
Proof. intros T A B H. apply at_edge_true; [|exact T]. destruct H; [left|right]; qc_lra. Qed.

Definition tol7 : Qc := lit_1em7.
Lemma tol7_pos : 0 < tol7. Proof. reflexivity. Qed.
Lemma tol12_7 : tol12 < tol7. Proof. reflexivity. Qed.

Lemma spiece_split_u s q ul uh vl vh t : (1 <= ns_du s)%nat -> spiece s q ul uh vl vh -> ul <= t -> t <= uh -> clear_of (ns_ku s) ul uh t ->
  (ns_split_u q t tol7 = Throw EInvalidArgument /\ (t - ul <= tol7 \/ uh - t <= tol7)) \/
  (tol7 < t - ul /\ tol7 < uh - t /\ exists a b, ns_split_u q t tol7 = Ok (a, b) /\ spiece s a ul t vl vh /\ spiece s b t uh vl vh).
Proof.
  intros H1 HP B1 B2 CL. destruct (spiece_interval _ _ _ _ _ _ HP) as (EU & EV & LU & LV).
  pose proof tol7_pos as TP. pose proof tol12_7 as T127.
  assert (0 <= tol7) as TP' by (apply Qclt_le_weak; exact TP).
  destruct (Qcleb_spec (t - ul) tol7) as [LE|GT].
  { left. split; [|auto]. unfold ns_split_u. rewrite EU. rewrite edge_near; auto. }
  destruct (Qcleb_spec (uh - t) tol7) as [LE|GT'].
  { left. split; [|auto]. unfold ns_split_u. rewrite EU. rewrite edge_near; auto. }
  apply Qcnot_le_lt in GT, GT'. right. split; [exact GT|]. split; [exact GT'|].
  assert (ul < t /\ t < uh) as [T1 T2] by (split; qc_lra).
  destruct HP as (n & m & G & D1 & D2 & W & I & K & L & HE). pose proof G as (_ & _ & _ & _ & VU & VV & _).
  destruct (kpiece_ends _ _ _ _ _ _ K) as (E2 & _ & _). pose proof K as (_ & _ & K0 & K1 & _ & HM).
  destruct (kpiece_ends _ _ _ _ _ _ L) as (F2 & _ & _). pose proof L as (_ & _ & L0 & L1 & _ & _).
  assert (separated (ns_ku q) t) as SEP by (eapply kpiece_separated; [exact K|exact CL| |]; clear - GT GT' T127; qc_lra).
  destruct (domain_span n (ns_du q) (ns_ku q) t VU) as (k & Hk & S1 & S2).
  { rewrite E2. apply Qclt_le_weak. exact T1. } { rewrite K1. exact T2. }
  destruct (split_u_ok q n m t tol7 k G W I) as (a & b & n1 & n2 & E & EV1 & EV2 & KA & KB & P1 & P2); try assumption.
  { rewrite D1. exact H1. }
  { eapply inner_edge_u; [exact G|exact I|]. unfold inner, lo_u, hi_u. rewrite E2, K1. auto. }
  { unfold lo_u. rewrite E2. exact T1. } { apply HM; assumption. }
  rewrite (split_left_eq _ n) in KA by assumption. rewrite (split_right_eq _ n) in KB by assumption.
  exists a, b. split; [exact E|].
  assert (lo_u q = ul) as QU by exact E2. assert (hi_u q n = uh) as QH by exact K1.
  assert (lo_v q = vl) as QV by exact F2. assert (hi_v q m = vh) as QW by exact L1.
  rewrite QU, QV, QW in P1. rewrite QH, QV, QW in P2.
  pose proof P1 as (G1 & X1 & X2 & W1 & I1 & KL1 & KL2 & KL3 & KL4 & _). pose proof P2 as (G2 & Y1 & Y2 & W2 & I2 & KR1 & KR2 & KR3 & KR4 & _).
  split.
  - exists n1, m. split; [exact G1|]. split; [congruence|]. split; [congruence|]. split; [exact W1|]. split; [exact I1|]. split; [|split].
    + pose proof G1 as (_ & _ & _ & _ & VA & _). rewrite X1 in *. rewrite KA in *. eapply kpiece_left; eauto.
    + rewrite EV1, X2. exact L.
    + intros u v U1 U2 V1 V2. destruct (sub_eval a q n m n1 m ul t vl vh) with (u := u) (v := v) as (pt & Z1 & Z2); try assumption;
        rewrite ?QU, ?QH, ?QV, ?QW; try apply Qcle_refl; [exact B2|].
      destruct (HE u v U1 ltac:(qc_lra) V1 V2) as (pt' & Z3 & Z4). assert (pt = pt') as <- by congruence. eauto.
  - exists n2, m. split; [exact G2|]. split; [congruence|]. split; [congruence|]. split; [exact W2|]. split; [exact I2|]. split; [|split].
    + pose proof G2 as (_ & _ & _ & _ & VA & _). rewrite Y1 in *. rewrite KB in *. eapply kpiece_right; eauto.
    + rewrite EV2, Y2. exact L.
    + intros u v U1 U2 V1 V2. destruct (sub_eval b q n m n2 m t uh vl vh) with (u := u) (v := v) as (pt & Z1 & Z2); try assumption;
        rewrite ?QU, ?QH, ?QV, ?QW; try apply Qcle_refl; [exact B1|].
      destruct (HE u v ltac:(qc_lra) U2 V1 V2) as (pt' & Z3 & Z4). assert (pt = pt') as <- by congruence. eauto.
Qed.

Lemma spiece_split_v s q ul uh vl vh t : (1 <= ns_dv s)%nat -> spiece s q ul uh vl vh -> vl <= t -> t <= vh -> clear_of (ns_kv s) vl vh t ->
  (ns_split_v q t tol7 = Throw EInvalidArgument /\ (t - vl <= tol7 \/ vh - t <= tol7)) \/
  (tol7 < t - vl /\ tol7 < vh - t /\ exists a b, ns_split_v q t tol7 = Ok (a, b) /\ spiece s a ul uh vl t /\ spiece s b ul uh t vh).
Proof.
  intros H1 HP B1 B2 CL. destruct (spiece_interval _ _ _ _ _ _ HP) as (EU & EV & LU & LV).
  pose proof tol7_pos as TP. pose proof tol12_7 as T127.
  assert (0 <= tol7) as TP' by (apply Qclt_le_weak; exact TP).
  destruct (Qcleb_spec (t - vl) tol7) as [LE|GT].
  { left. split; [|auto]. unfold ns_split_v. rewrite EV. rewrite edge_near; auto. }
  destruct (Qcleb_spec (vh - t) tol7) as [LE|GT'].
  { left. split; [|auto]. unfold ns_split_v. rewrite EV. rewrite edge_near; auto. }
  apply Qcnot_le_lt in GT, GT'. right. split; [exact GT|]. split; [exact GT'|].
  assert (vl < t /\ t < vh) as [T1 T2] by (split; qc_lra).
  destruct HP as (n & m & G & D1 & D2 & W & I & K & L & HE). pose proof G as (_ & _ & _ & _ & VU & VV & _).
  destruct (kpiece_ends _ _ _ _ _ _ L) as (E2 & _ & _). pose proof L as (_ & _ & K0 & K1 & _ & HM).
  destruct (kpiece_ends _ _ _ _ _ _ K) as (F2 & _ & _). pose proof K as (_ & _ & L0 & L1 & _ & _).
  assert (separated (ns_kv q) t) as SEP by (eapply kpiece_separated; [exact L|exact CL| |]; clear - GT GT' T127; qc_lra).
  destruct (domain_span m (ns_dv q) (ns_kv q) t VV) as (k & Hk & S1 & S2).
  { rewrite E2. apply Qclt_le_weak. exact T1. } { rewrite K1. exact T2. }
  destruct (split_v_ok q n m t tol7 k G W) as (a & b & n1 & n2 & E & EV1 & EV2 & KA & KB & P1 & P2); try assumption.
  { rewrite D2. exact H1. }
  { eapply inner_edge_v; [exact G|exact I|]. unfold inner, lo_v, hi_v. rewrite E2, K1. auto. }
  { unfold lo_v. rewrite E2. exact T1. } { apply HM; assumption. }
  rewrite (split_left_eq _ m) in KA by assumption. rewrite (split_right_eq _ m) in KB by assumption.
  exists a, b. split; [exact E|].
  assert (lo_u q = ul) as QU by exact F2. assert (hi_u q n = uh) as QH by exact L1.
  assert (lo_v q = vl) as QV by exact E2. assert (hi_v q m = vh) as QW by exact K1.
  rewrite QU, QH, QV in P1. rewrite QU, QH, QW in P2.
  pose proof P1 as (G1 & X1 & X2 & W1 & I1 & KL1 & KL2 & KL3 & KL4 & _). pose proof P2 as (G2 & Y1 & Y2 & W2 & I2 & KR1 & KR2 & KR3 & KR4 & _).
  split.
  - exists n, n1. split; [exact G1|]. split; [congruence|]. split; [congruence|]. split; [exact W1|]. split; [exact I1|]. split; [|split].
    + rewrite EV1, X1. exact K.
    + pose proof G1 as (_ & _ & _ & _ & _ & VA & _). rewrite X2 in *. rewrite KA in *. eapply kpiece_left; eauto.
    + intros u v U1 U2 V1 V2. destruct (sub_eval a q n m n n1 ul uh vl t) with (u := u) (v := v) as (pt & Z1 & Z2); try assumption;
        rewrite ?QU, ?QH, ?QV, ?QW; try apply Qcle_refl; [exact B2|].
      destruct (HE u v U1 U2 V1 ltac:(qc_lra)) as (pt' & Z3 & Z4). assert (pt = pt') as <- by congruence. eauto.
  - exists n, n2. split; [exact G2|]. split; [congruence|]. split; [congruence|]. split; [exact W2|]. split; [exact I2|]. split; [|split].
    + rewrite EV2, Y1. exact K.
    + pose proof G2 as (_ & _ & _ & _ & _ & VA & _). rewrite Y2 in *. rewrite KB in *. eapply kpiece_right; eauto.
    + intros u v U1 U2 V1 V2. destruct (sub_eval b q n m n n2 ul uh t vh) with (u := u) (v := v) as (pt & Z1 & Z2); try assumption;
        rewrite ?QU, ?QH, ?QV, ?QW; try apply Qcle_refl; [exact B1|].
      destruct (HE u v U1 U2 ltac:(qc_lra) V2) as (pt' & Z3 & Z4). assert (pt = pt') as <- by congruence. eauto.
Qed.

Lemma spiece_subdivide s q ul uh vl vh u v : (1 <= ns_du s)%nat -> (1 <= ns_dv s)%nat -> spiece s q ul uh vl vh ->
  ul <= u -> u <= uh -> vl <= v -> v <= vh -> clear_of (ns_ku s) ul uh u -> clear_of (ns_kv s) vl vh v ->
  (ns_subdivide_at q u v = Throw EInvalidArgument /\ (u - ul <= tol7 \/ uh - u <= tol7 \/ v - vl <= tol7 \/ vh - v <= tol7)) \/
  (tol7 < u - ul /\ tol7 < uh - u /\ tol7 < v - vl /\ tol7 < vh - v /\
   exists a b c d, ns_subdivide_at q u v = Ok (a, b, c, d) /\
     spiece s a ul u vl v /\ spiece s b ul u v vh /\ spiece s c u uh vl v /\ spiece s d u uh v vh).
Proof.
  intros H1 H2 HP U1 U2 V1 V2 CU CV. unfold ns_subdivide_at. fold tol7.
  destruct (spiece_split_u s q ul uh vl vh u) as [[E N]|(A & B & s1 & s2 & E & P1 & P2)]; try assumption.
  { left. rewrite E. split; [reflexivity|]. tauto. }
  rewrite E. cbn [bind].
  destruct (spiece_split_v s s1 ul u vl vh v) as [[E1 N]|(C & D & a & b & E1 & Q1 & Q2)]; try assumption.
  { left. rewrite E1. split; [reflexivity|]. tauto. }
  rewrite E1. cbn [bind].
  destruct (spiece_split_v s s2 u uh vl vh v) as [[E2 N]|(C' & D' & c & d & E2 & Q3 & Q4)]; try assumption.
  { left. rewrite E2. split; [reflexivity|]. tauto. }
  rewrite E2. cbn [bind]. right. do 4 (split; [assumption|]). exists a, b, c, d. auto.
Qed.
