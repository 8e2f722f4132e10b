(** Soundness, completeness and termination of curve-curve intersection. *)
From Coq Require Import List ZArith Lia QArith Qcanon Lqa Bool.
From Verif Require Import Base BaseFacts LoopFacts ModelVec ModelAabb ModelNurbs ModelCcx SpecAabb SpecNurbs SpecCurve SpecCcx
  ProofAabb ProofBspline ProofNurbs ProofInsertion ProofInsertKnot ProofCurve ProofSplit ProofNurbsTop ProofDecompose ProofMinimize ProofCcx.
Import ListNotations.
Open Scope Qc_scope.

Section Ccx.
Variable len : vec3 -> option Qc.

(** ** Boxes *)
Lemma sq_between (a b x : Qc) : 0 <= x + b -> 0 <= b - x -> x * x <= b * b.
Proof.
  intros A B. pose proof (ProofMinimize.Qcmul_nonneg _ _ A B) as M.
  assert (b * b - x * x = (x + b) * (b - x)) as E by ring. rewrite <- E in M. revert M. generalize (b * b) (x * x). intros u v M. qc_lra.
Qed.

Lemma box_diameter b p q : inside b p -> inside b q -> v3distSq p q <= v3sq (v3sub (bmax b) (bmin b)).
Proof.
  intros P Q. unfold v3distSq, v3sq, v3sub. cbn [vx vy vz].
  assert (forall ax, (coord p ax - coord q ax) * (coord p ax - coord q ax) <= (coord (bmax b) ax - coord (bmin b) ax) * (coord (bmax b) ax - coord (bmin b) ax)) as K.
  { intros ax. destruct (P ax) as [P1 P2]. destruct (Q ax) as [Q1 Q2]. apply (sq_between 0); qc_lra. }
  pose proof (K AX) as KX. pose proof (K AY) as KY. pose proof (K AZ) as KZ. cbn [coord] in KX, KY, KZ.
  apply Qcplus_le_compat; [apply Qcplus_le_compat|]; assumption.
Qed.

Lemma small_diameter b tol r p q : shorter len tol r -> ccx_small len b tol = true -> inside b p -> inside b q -> v3distSq p q < r * r.
Proof.
  intros SH SM P Q. unfold ccx_small in SM. destruct (len _) as [l|] eqn:E; [|discriminate]. apply Qcltb_iff in SM.
  specialize (SH _ _ E SM). apply Qcle_lt_trans with (v3sq (v3sub (bmax b) (bmin b))); [apply box_diameter; assumption|].
  replace (v3sq (v3sub (bmax b) (bmin b))) with (v3distSq (v3sub (bmax b) (bmin b)) (V3 0 0 0)); [exact SH|].
  unfold v3distSq, v3sq, v3sub. cbn [vx vy vz]. ring.
Qed.

Lemma boxes_meet a b p q : inside a p -> inside b q -> aabb_intersects a b = true -> exists x, inside a x /\ inside b x.
Proof.
  intros P Q H. rewrite intersects_iff in H.
  assert (forall ax, coord (bmin a) ax <= coord (bmax a) ax) as PA by (intros ax; destruct (P ax); eapply Qcle_trans; eassumption).
  assert (forall ax, coord (bmin b) ax <= coord (bmax b) ax) as PB by (intros ax; destruct (Q ax); eapply Qcle_trans; eassumption).
  exists (V3 (Qcmax (vx (bmin a)) (vx (bmin b))) (Qcmax (vy (bmin a)) (vy (bmin b))) (Qcmax (vz (bmin a)) (vz (bmin b)))).
  split; intros ax; specialize (PA ax); specialize (PB ax); destruct (H ax) as [H1 H2]; destruct ax; cbn [coord vx vy vz] in *;
    split; (apply Qcmax_ge_l || apply Qcmax_ge_r || (apply Qcmax_lub; assumption)).
Qed.

Lemma meet_boxes a b x : inside a x -> inside b x -> aabb_intersects a b = true.
Proof. intros A B. apply intersects_iff. intros ax. destruct (A ax), (B ax). split; eapply Qcle_trans; eassumption. Qed.

Definition some_piece (c q : ncurve) : Prop := exists lo hi, piece c q lo hi.
Lemma piece_closed c : bisectable c -> closed_split (some_piece c).
Proof.
  intros B q a b (lo & hi & P) H. destruct (piece_split _ _ _ _ B P) as (M & K). cbv zeta in *. rewrite M in H.
  destruct K as [(K & _)|(_ & a' & b' & E & PA & PB)]; [rewrite K in H; discriminate|].
  rewrite E in H. assert (a = a' /\ b = b') as [-> ->] by (split; congruence). split; eexists; eexists; eassumption.
Qed.

Lemma piece_middle c q lo hi : piece c q lo hi -> lo <= middle q /\ middle q <= hi.
Proof. intros P. destruct (piece_interval _ _ _ _ P) as (E & L). unfold middle. rewrite E. cbn [fst snd]. apply mid_in. apply Qclt_le_weak. exact L. Qed.

Lemma piece_point c q lo hi u : piece c q lo hi -> lo <= u -> u <= hi -> exists pt, evaluate q u = Ok pt /\ evaluate c u = Ok pt /\ inside (nc_aabb q) pt.
Proof. intros (m & _ & _ & _ & _ & _ & _ & _ & _ & _ & _ & H). apply H. Qed.

(** ** Soundness *)
Lemma ccx_sound fuel c1 c2 tol r result out : bisectable c1 -> bisectable c2 -> shorter len tol r ->
  ccx len fuel c1 c2 tol result = Some (Ok out) ->
  exists new, out = result ++ new /\ forall s t, In (s, t) new -> meet_near c1 c2 r s t.
Proof.
  intros B1 B2 SH. apply (ccx_new len (some_piece c1) (some_piece c2) _ tol (piece_closed _ B1) (piece_closed _ B2)).
  - intros q1 q2 (l1 & h1 & P1) (l2 & h2 & P2) X S1 S2. destruct (piece_middle _ _ _ _ P1) as [M1 M2]. destruct (piece_middle _ _ _ _ P2) as [M3 M4].
    destruct (piece_point _ _ _ _ _ P1 M1 M2) as (p & _ & Ep & Ip). destruct (piece_point _ _ _ _ _ P2 M3 M4) as (q & _ & Eq & Iq).
    destruct (boxes_meet _ _ _ _ Ip Iq X) as (x & X1 & X2). exists p, q, x. split; [exact Ep|]. split; [exact Eq|].
    split; [exact (small_diameter _ _ _ _ _ SH S1 Ip X1)|exact (small_diameter _ _ _ _ _ SH S2 Iq X2)].
  - eexists; eexists; apply bisectable_piece; assumption.
  - eexists; eexists; apply bisectable_piece; assumption.
Qed.

(** ** Completeness *)
Lemma ccx_extends fuel : forall c1 c2 tol result out, ccx len fuel c1 c2 tol result = Some (Ok out) -> forall x, In x result -> In x out.
Proof.
  intros c1 c2 tol result out H x I.
  destruct (ccx_new len (fun _ => True) (fun _ => True) (fun _ _ => True) tol) with (fuel := fuel) (c1 := c1) (c2 := c2) (result := result) (out := out)
    as (new & -> & _); auto.
  - intros c a b _ _. auto.
  - intros c a b _ _. auto.
  - apply in_or_app. auto.
Qed.

Lemma Qcle_or_lt (a b : Qc) : a <= b \/ b < a.
Proof. destruct (Qclt_le_dec b a); auto. Qed.

Lemma represented_mono c1 c2 tol r l l' u1 u2 : (forall x, In x l -> In x l') -> represented c1 c2 tol r l u1 u2 -> represented c1 c2 tol r l' u1 u2.
Proof. intros H (s & t & s' & t' & p & q & p' & q' & I & R). exists s, t, s', t', p, q, p', q'. auto. Qed.

Lemma abs_zero (x tol : Qc) : 0 <= tol -> Qcabs (x - x) <= tol.
Proof. intros H. destruct (Qcabs_cases (x - x)) as [[P Q]|[P Q]]; rewrite Q; qc_lra. Qed.

Lemma abs_nonneg x : 0 <= Qcabs x.
Proof. destruct (Qcabs_cases x) as [[P Q]|[P Q]]; rewrite Q; qc_lra. Qed.

Lemma ccx_complete_piece c1 c2 tol r pt u1 u2 : bisectable c1 -> bisectable c2 -> 0 <= tol -> shorter len tol r ->
  evaluate c1 u1 = Ok pt -> evaluate c2 u2 = Ok pt ->
  forall fuel q1 q2 l1 h1 l2 h2 result out, piece c1 q1 l1 h1 -> piece c2 q2 l2 h2 -> l1 <= u1 -> u1 <= h1 -> l2 <= u2 -> u2 <= h2 ->
  ccx len fuel q1 q2 tol result = Some (Ok out) -> represented c1 c2 tol r out u1 u2.
Proof.
  intros B1 B2 T0 SH E1 E2. induction fuel as [|f IH]; intros q1 q2 l1 h1 l2 h2 result out P1 P2 U1 U2 U3 U4 H; [discriminate|].
  destruct (piece_point _ _ _ _ _ P1 U1 U2) as (p & _ & Ep & Ip). assert (p = pt) as -> by congruence.
  destruct (piece_point _ _ _ _ _ P2 U3 U4) as (p & _ & Ep2 & Ip2). assert (p = pt) as -> by congruence.
  pose proof (meet_boxes _ _ _ Ip Ip2) as X.
  apply ccx_cases in H. destruct H as [(X' & _)|[(_ & S1 & S2 & ->)|(_ & _ & a1 & b1 & a2 & b2 & r1 & r2 & r3 & S1 & S2 & H1 & H2 & H3 & H4)]]; [congruence| |].
  - destruct (piece_middle _ _ _ _ P1) as [M1 M2]. destruct (piece_middle _ _ _ _ P2) as [M3 M4].
    destruct (piece_point _ _ _ _ _ P1 M1 M2) as (p' & _ & Ep' & Ip'). destruct (piece_point _ _ _ _ _ P2 M3 M4) as (q' & _ & Eq' & Iq').
    assert (v3distSq pt p' < r * r) as D1 by exact (small_diameter _ _ _ _ _ SH S1 Ip Ip').
    assert (v3distSq pt q' < r * r) as D2 by exact (small_diameter _ _ _ _ _ SH S2 Ip2 Iq').
    destruct (push_cases tol result (middle q1) (middle q2)) as [E|[E (s & t & I & A1 & A2)]]; fold (middle q1) (middle q2); rewrite E.
    + exists (middle q1), (middle q2), (middle q1), (middle q2), pt, pt, p', q'.
      split; [apply in_or_app; right; left; reflexivity|]. split; [apply abs_zero; exact T0|]. split; [apply abs_zero; exact T0|]. auto 10.
    + exists s, t, (middle q1), (middle q2), pt, pt, p', q'. auto 10.
  - destruct (piece_split _ _ _ _ B1 P1) as (M1 & K1). destruct (piece_split _ _ _ _ B2 P2) as (M2 & K2). cbv zeta in *.
    fold (midpoint q1) in S1. fold (midpoint q2) in S2. rewrite M1 in S1. rewrite M2 in S2.
    destruct K1 as [(K1 & _)|(_ & a & b & K1 & PA1 & PB1)]; [rewrite K1 in S1; discriminate|].
    rewrite K1 in S1. assert (a = a1 /\ b = b1) as [-> ->] by (split; congruence).
    destruct K2 as [(K2 & _)|(_ & a & b & K2 & PA2 & PB2)]; [rewrite K2 in S2; discriminate|].
    rewrite K2 in S2. assert (a = a2 /\ b = b2) as [-> ->] by (split; congruence).
    pose proof (ccx_extends _ _ _ _ _ _ H2) as X2. pose proof (ccx_extends _ _ _ _ _ _ H3) as X3. pose proof (ccx_extends _ _ _ _ _ _ H4) as X4.
    destruct (Qcle_or_lt u1 ((h1 - l1) * qc 1 2 + l1)) as [C1|C1]; destruct (Qcle_or_lt u2 ((h2 - l2) * qc 1 2 + l2)) as [C2|C2];
      try apply Qclt_le_weak in C1; try apply Qclt_le_weak in C2.
    + apply (represented_mono _ _ _ _ r1); [auto|]. eapply (IH a1 a2); [exact PA1|exact PA2| | | | |exact H1]; assumption.
    + apply (represented_mono _ _ _ _ r3); [auto|]. eapply (IH a1 b2); [exact PA1|exact PB2| | | | |exact H3]; assumption.
    + eapply (IH b1 a2); [exact PB1|exact PA2| | | | |exact H4]; assumption.
    + apply (represented_mono _ _ _ _ r2); [auto|]. eapply (IH b1 b2); [exact PB1|exact PB2| | | | |exact H2]; assumption.
Qed.

Lemma ccx_complete fuel c1 c2 tol r result out u1 u2 : bisectable c1 -> bisectable c2 -> 0 <= tol -> shorter len tol r ->
  ccx len fuel c1 c2 tol result = Some (Ok out) -> crossing c1 c2 u1 u2 -> represented c1 c2 tol r out u1 u2.
Proof.
  intros B1 B2 T0 SH H ((W1 & W2) & (W3 & W4) & pt & E1 & E2).
  eapply (ccx_complete_piece c1 c2 tol r pt u1 u2); try eassumption; apply bisectable_piece; assumption.
Qed.

(** ** Termination *)
Lemma ccx_more fuel : forall c1 c2 tol result x, ccx len fuel c1 c2 tol result = Some x -> ccx len (S fuel) c1 c2 tol result = Some x.
Proof.
  induction fuel as [|f IH]; intros c1 c2 tol result x H; [discriminate|].
  rewrite ccx_eq in H |- *. destruct (aabb_intersects _ _); [|exact H]. destruct (_ && _); [exact H|].
  destruct (nc_split c1 _ false) as [(a1, b1)| |]; try exact H. destruct (nc_split c2 _ false) as [(a2, b2)| |]; try exact H.
  unfold ccx_then in *.
  destruct (ccx len f a1 a2 tol result) as [r1|] eqn:R1; [|discriminate]. apply IH in R1. rewrite R1. destruct r1 as [r1| |]; try exact H.
  destruct (ccx len f b1 b2 tol r1) as [r2|] eqn:R2; [|discriminate]. apply IH in R2. rewrite R2. destruct r2 as [r2| |]; try exact H.
  destruct (ccx len f a1 b2 tol r2) as [r3|] eqn:R3; [|discriminate]. apply IH in R3. rewrite R3. destruct r3 as [r3| |]; try exact H.
  apply IH. exact H.
Qed.
Lemma ccx_mono fuel fuel' c1 c2 tol result x : (fuel <= fuel')%nat -> ccx len fuel c1 c2 tol result = Some x -> ccx len fuel' c1 c2 tol result = Some x.
Proof. induction 1; [auto|]. intros H0. apply ccx_more. auto. Qed.

Fixpoint pow2 (k : nat) : Qc := match k with O => 1 | S j => qc 2 1 * pow2 j end.
Definition fine (r : option (res (list (Qc * Qc)))) : Prop := (exists out, r = Some (Ok out)) \/ r = Some (Throw EInvalidArgument).

Lemma ccx_fine c1 c2 tol : bisectable c1 -> bisectable c2 ->
  forall k q1 q2 l1 h1 l2 h2 result, piece c1 q1 l1 h1 -> piece c2 q2 l2 h2 -> h1 - l1 <= pow2 k * tol12 -> fine (ccx len (S k) q1 q2 tol result).
Proof.
  intros B1 B2. induction k as [|k IH]; intros q1 q2 l1 h1 l2 h2 result P1 P2 HK; rewrite ccx_eq;
  (destruct (aabb_intersects _ _); [|left; eauto]); (destruct (_ && _); [left; eauto|]); fold (midpoint q1); fold (midpoint q2);
  destruct (piece_split _ _ _ _ B1 P1) as (M1 & K1); destruct (piece_split _ _ _ _ B2 P2) as (M2 & K2); cbv zeta in *; rewrite M1, M2;
  (destruct K1 as [(K1 & _)|(G1 & a1 & b1 & K1 & PA1 & PB1)]; rewrite K1; [right; reflexivity|]);
  (destruct K2 as [(K2 & _)|(_ & a2 & b2 & K2 & PA2 & PB2)]; rewrite K2; [right; reflexivity|]).
  - exfalso. cbn [pow2] in HK. pose proof tol12_pos as T. revert G1 HK T. generalize tol12. intros e G1 HK T. rewrite Qcmult_1_l in HK. qc_lra.
  - assert (forall q l h, h - l = (h1 - l1) * qc 1 2 -> piece c1 q l h -> forall q' l' h' res0, piece c2 q' l' h' -> fine (ccx len (S k) q q' tol res0)) as Z.
    { intros q l h E PQ q' l' h' res0 PQ'. eapply IH; [exact PQ|exact PQ'|]. rewrite E. cbn [pow2] in HK.
      assert (qc 2 1 * pow2 k * tol12 = (pow2 k * tol12) * qc 2 1) as Q by ring. rewrite Q in HK. clear - HK. revert HK. generalize (pow2 k * tol12). intros e HK. qc_lra. }
    assert ((h1 - l1) * qc 1 2 + l1 - l1 = (h1 - l1) * qc 1 2) as EA by ring.
    assert (h1 - ((h1 - l1) * qc 1 2 + l1) = (h1 - l1) * qc 1 2) as EB by (apply Qcle_antisym; clear; qc_lra).
    unfold ccx_then.
    destruct (Z _ _ _ EA PA1 _ _ _ result PA2) as [(r1 & ->)| ->]; [|right; reflexivity].
    destruct (Z _ _ _ EB PB1 _ _ _ r1 PB2) as [(r2 & ->)| ->]; [|right; reflexivity].
    destruct (Z _ _ _ EA PA1 _ _ _ r2 PB2) as [(r3 & ->)| ->]; [|right; reflexivity].
    exact (Z _ _ _ EB PB1 _ _ _ r3 PA2).
Qed.

Lemma pow2_ge k : Qc_of_nat k <= pow2 k.
Proof.
  induction k as [|k IH]; [discriminate|]. cbn [pow2]. assert (Qc_of_nat (S k) = Qc_of_nat k + 1) as ->.
  { apply Qc_is_canon. unfold Qc_of_nat. rewrite this_plus, !this_of_Z, Nat2Z.inj_succ. unfold inject_Z, Qplus, Qeq. cbn. lia. }
  assert (1 <= pow2 k) as P. { clear. induction k; cbn [pow2]; [discriminate|]. revert IHk. generalize (pow2 k). intros x H. qc_lra. }
  revert IH P. generalize (pow2 k) (Qc_of_nat k). intros x y H P. qc_lra.
Qed.
End Ccx.

(** ** Neighbouring pairs *)
Definition apart (tol : Qc) (out : list (Qc * Qc)) : Prop :=
  forall i s t s' t', nth_error out i = Some (s, t) -> nth_error out (S i) = Some (s', t') ->
  tol < Qcabs (s - s') \/ tol < Qcabs (t - t').

Lemma push_apart tol out f s : apart tol out -> apart tol (ccx_push tol out f s).
Proof.
  intros A. unfold ccx_push.
  assert (forall a b, (exists l, out = l ++ [(a, b)]) \/ out = [] -> (out <> [] -> tol < Qcabs (a - f) \/ tol < Qcabs (b - s)) -> apart tol (out ++ [(f, s)])) as K.
  { intros a b O H i x y x' y' E1 E2. destruct (Nat.lt_trichotomy (S i) (length out)) as [L|[L|L]].
    - rewrite nth_error_app1 in E1, E2 by lia. exact (A i x y x' y' E1 E2).
    - rewrite nth_error_app1 in E1 by lia. rewrite nth_error_app2, L, Nat.sub_diag in E2 by lia. cbn in E2.
      destruct O as [(l & ->)| ->]; [|discriminate L]. rewrite app_length in L. cbn [length] in L. rewrite nth_error_app2 in E1 by lia.
      replace (i - length l)%nat with 0%nat in E1 by lia. cbn in E1.
      assert (a = x /\ b = y) as [-> ->] by (split; congruence). assert (f = x' /\ s = y') as [-> ->] by (split; congruence).
      apply H. intros X. destruct l; discriminate X.
    - rewrite nth_error_app2 in E2 by lia. destruct (S i - length out)%nat eqn:Z; [lia|]. destruct n; discriminate E2. }
  destruct (rev out) as [|[a b] l] eqn:R.
  - apply (K 0 0); [|].
    + right. rewrite <- (rev_involutive out), R. reflexivity.
    + intros X. exfalso. apply X. rewrite <- (rev_involutive out), R. reflexivity.
  - destruct (_ && _) eqn:E; [exact A|]. apply (K a b).
    + left. exists (rev l). rewrite <- (rev_involutive out), R. reflexivity.
    + intros _. apply andb_false_iff in E. destruct E as [E|E]; [left|right];
        (match type of E with (?x <=? ?y) = false => destruct (Qcleb_spec x y) as [X|X]; [discriminate E|] end; exact X || (apply Qcnot_le_lt; exact X)).
Qed.

Lemma ccx_apart len fuel : forall c1 c2 tol result out, apart tol result -> ccx len fuel c1 c2 tol result = Some (Ok out) -> apart tol out.
Proof.
  induction fuel as [|f IH]; intros c1 c2 tol result out A H; [discriminate|].
  apply ccx_cases in H. destruct H as [(_ & ->)|[(_ & _ & _ & ->)|(_ & _ & a1 & b1 & a2 & b2 & r1 & r2 & r3 & _ & _ & H1 & H2 & H3 & H4)]]; [exact A|apply push_apart; exact A|].
  eapply IH; [|exact H4]. eapply IH; [|exact H3]. eapply IH; [|exact H2]. eapply IH; [|exact H1]. exact A.
Qed.

Lemma ccx_neighbours len fuel c1 c2 tol out : ccx len fuel c1 c2 tol [] = Some (Ok out) -> apart tol out.
Proof. apply ccx_apart. intros i s t s' t' E. destruct i; discriminate E. Qed.
