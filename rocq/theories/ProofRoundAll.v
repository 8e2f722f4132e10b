(** The rounding theorems as they are stated in PropsRound. *)
From Coq Require Import List ZArith QArith Qcanon Bool Lia Lqa.
From Verif Require Import Base BaseFacts LoopFacts ModelVec ModelAabb ModelNurbs ModelSurface ModelRound.
From Verif Require Import SpecAabb SpecNurbs SpecCurve SpecSurface SpecRound.
From Verif Require Import ProofBspline ProofNurbs ProofCurve ProofSurface ProofRound ProofRoundTop ProofRoundDouble.
Import ListNotations.
Open Scope Qc_scope.

(** ** sums *)
Lemma same_sum u k f g n : 0 <= u -> u < 1 -> (forall i, (i < n)%nat -> same_up_to u k (f i) (g i)) -> same_up_to u k (qsum f n) (qsum g n).
Proof.
  intros A B. induction n as [|n IH]; intros H; cbn [qsum].
  - split; rewrite Qcmult_0_r; apply Qcle_refl.
  - destruct (IH (fun i Hi => H i (Nat.lt_lt_succ_r _ _ Hi))) as (C & D). destruct (H n (Nat.lt_succ_diag_r n)) as (E & F).
    split; rewrite Qcmult_plus_distr_r; apply Qcplus_le_compat; assumption.
Qed.

Lemma basis_top eps fl n p U x s : rounds eps fl -> valid_knots n p U -> in_domain n p U x -> (p <= 8)%nat -> find_span n p x U = Ok s ->
  match fbasis_funs fl s x p U zeros with
  | Ok N => (forall r, (r <= p)%nat -> 0 <= nth r N 0 /\ same_up_to eps (6 * p) (basis_at U n p x (s - p + r)) (nth r N 0)) /\
            same_up_to eps (6 * p) 1 (qsum (fun r => nth r N 0) (S p))
  | Throw e => e = ERuntime
  | UB => False
  end.
Proof.
  intros R V D H8 E. pose proof (rounded_basis eps fl R n p U x s V D H8 E) as H.
  destruct (fbasis_funs fl s x p U zeros) as [N|e|]; [|exact H|exact H]. split; [exact H|].
  destruct (find_span_spec n p U x V D) as (s' & E' & Hs & S). rewrite E in E'. injection E' as <-. pose proof S as (Hsn & _).
  replace 1 with (qsum (fun r => basis_at U n p x (s - p + r)) (Datatypes.S p)).
  - destruct R as (R1 & R2 & _). apply same_sum; [assumption..|]. intros i Hi. apply H. lia.
  - rewrite <- (partition_all n p U x V D).
    rewrite (qsum_ext (basis_at U n p x) (fun i => bsp (knot U) s p i x * 1)).
    2:{ intros i _. rewrite (basis_at_bsp n p U x s) by assumption. ring. }
    rewrite (bsp_sum_support (knot U) s p x (fun _ => 1)) by lia. apply qsum_ext. intros i _. rewrite (basis_at_bsp n p U x s) by assumption. ring.
Qed.

(** ** curves *)
Lemma curve_top eps fl c n B x : rounds eps fl -> good_curve c n -> in_curve c n x -> positive_weights (nc_cps c) ->
  coords_up_to B (nc_cps c) ->
  match fevaluate fl c x with
  | Ok p => point_differs_at_most eps (14 * nc_degree c + 6) B (rational_point (nc_knots c) n (nc_degree c) (nc_cps c) x) p
  | Throw e => e = ERuntime
  | UB => False
  end.
Proof.
  intros R (L & V & H8) D W HB. pose proof (evaluate_positive c n x L V H8 D W) as E.
  pose proof (rounded_curve eps fl R n (nc_degree c) (nc_knots c) (nc_cps c) B x V D H8 L (fun q I => conj (W q I) (HB q I))) as F.
  unfold fevaluate. unfold evaluate in E. rewrite L in *. rewrite E in F. unfold follows in F.
  destruct (fcurve_point _ _ _ _ _ _) as [p|e|]; [|exact F|exact F]. eapply point_differs; eassumption.
Qed.

Lemma ofN_le a b : (a <= b)%nat -> ofN a <= ofN b.
Proof. intros H. apply ofZ_le. lia. Qed.
Lemma double_bound k b B p q : (k <= 2 ^ b)%nat -> (b <= 52)%nat -> 0 <= B -> point_differs_at_most (p2 (-53)) k B p q -> point_within (p2 (Z.of_nat b - 52) * B) p q.
Proof.
  intros Hk Hb B0 H.
  assert (ofN k * p2 (-53) <= p2 (Z.of_nat b - 53)) as K.
  { apply Qcle_trans with (p2 (Z.of_nat b) * p2 (-53)).
    - rewrite (Qcmult_comm (ofN k)), (Qcmult_comm (p2 (Z.of_nat b))). apply mul_le_l; [apply lt_le, p2_pos|].
      rewrite <- ofZ_p2 by lia. apply ofZ_le. apply inj_le in Hk. rewrite Nat2Z.inj_pow in Hk. exact Hk.
    - rewrite <- p2_add. replace (Z.of_nat b + -53)%Z with (Z.of_nat b - 53)%Z by lia. apply Qcle_refl. }
  assert (ofN k * p2 (-53) <= half) as HF.
  { eapply Qcle_trans; [exact K|]. change half with (p2 (-1)). apply p2_mono. lia. }
  pose proof (point_differs_within (p2 (-53)) k B p q (lt_le _ _ (p2_pos _)) eq_refl B0 HF H) as (X & Y & Z).
  assert ((ofN k * p2 (-53) + ofN k * p2 (-53)) * B <= p2 (Z.of_nat b - 52) * B) as F.
  { rewrite !(Qcmult_comm _ B). apply mul_le_l; [exact B0|]. replace (Z.of_nat b - 52)%Z with (Z.of_nat b - 53 + 1)%Z by lia. rewrite p2_step.
    apply Qcplus_le_compat; exact K. }
  split; [|split]; eapply Qcle_trans; eassumption.
Qed.

Lemma in_doubles_rounds fl : in_doubles fl -> rounds (p2 (-53)) fl.
Proof.
  intros (_ & F). destruct double_rounds as (A & B & C). split; [exact A|]. split; [exact B|]. intros k x y E. destruct (F k) as [H|H]; rewrite H in E.
  - exact (C 0%nat x y E).
  - injection E as <-. replace (x - x) with 0 by ring. rewrite Qcabs_0. apply mul_nonneg; [exact A|apply Qcabs_nonneg].
Qed.
Lemma curve_double fl c n B x : in_doubles fl -> good_curve c n -> in_curve c n x -> positive_weights (nc_cps c) ->
  coords_up_to B (nc_cps c) ->
  match fevaluate fl c x with
  | Ok p => point_within (p2 (-45) * B) (rational_point (nc_knots c) n (nc_degree c) (nc_cps c) x) p
  | Throw e => e = ERuntime
  | UB => False
  end.
Proof.
  intros F G D W HB. pose proof (curve_top _ _ c n B x (in_doubles_rounds fl F) G D W HB) as H.
  destruct (fevaluate fl c x) as [p|e|]; [|exact H|exact H].
  destruct G as (L & _ & H8). assert (0 <= B) as B0.
  { destruct (nc_cps c) as [|q P]; [discriminate L|]. destruct (HB q (or_introl eq_refl)) as (A & _). eapply Qcle_trans; [apply Qcabs_nonneg|exact A]. }
  apply (double_bound (14 * nc_degree c + 6) 7) in H; [exact H| |lia|exact B0]. change (2 ^ 7)%nat with 128%nat. lia.
Qed.

Lemma within_grown b d p q : inside b p -> point_within d p q -> inside (grown b d) q.
Proof.
  intros I (X & Y & Z) ax. pose proof (Qcle_Qcabs (vx q - vx p)). pose proof (Qcopp_Qcabs (vx q - vx p)).
  pose proof (Qcle_Qcabs (vy q - vy p)). pose proof (Qcopp_Qcabs (vy q - vy p)). pose proof (Qcle_Qcabs (vz q - vz p)). pose proof (Qcopp_Qcabs (vz q - vz p)).
  destruct ax; [destruct (I AX) as (A1 & A2)|destruct (I AY) as (A1 & A2)|destruct (I AZ) as (A1 & A2)];
  cbn [coord grown bmin bmax vx vy vz] in *; clear I; split; qc_lra.
Qed.
Lemma curve_box fl c n b B x p : in_doubles fl -> good_curve c n -> in_curve c n x -> positive_weights (nc_cps c) ->
  (forall q, In q (nc_cps c) -> inside b (xyz q)) ->
  coords_up_to B (nc_cps c) ->
  fevaluate fl c x = Ok p -> inside (grown b (p2 (-45) * B)) p.
Proof.
  intros F G D W HI HB E. pose proof (curve_double fl c n B x F G D W HB) as H. rewrite E in H. destruct G as (L & V & H8).
  eapply within_grown; [|exact H]. destruct b as [lo hi]. apply hull_box; assumption.
Qed.

(** ** surfaces *)
Lemma surface_top eps fl s n m B u v : rounds eps fl -> good_surf s n m -> in_surf s n m u v -> positive_surf s ->
  net_up_to B (ns_cps s) ->
  match fns_evaluate fl s u v with
  | Ok p => point_differs_at_most eps (14 * (ns_du s + ns_dv s) + 9) B (surf_point s n m u v) p
  | Throw e => e = ERuntime
  | UB => False
  end.
Proof.
  intros R G D W HB. pose proof (evaluate_positive_surf s n m u v G D W) as E.
  pose proof (rounded_surface eps fl R s n m B u v G D (fun row q I J => conj (W row q I J) (HB row q I J))) as F.
  rewrite E in F. unfold follows in F. destruct (fns_evaluate fl s u v) as [p|e|]; [|exact F|exact F]. eapply point_differs; eassumption.
Qed.
Lemma surface_double fl s n m B u v : in_doubles fl -> good_surf s n m -> in_surf s n m u v -> positive_surf s ->
  net_up_to B (ns_cps s) ->
  match fns_evaluate fl s u v with
  | Ok p => point_within (p2 (-44) * B) (surf_point s n m u v) p
  | Throw e => e = ERuntime
  | UB => False
  end.
Proof.
  intros F G D W HB. pose proof (surface_top _ _ s n m B u v (in_doubles_rounds fl F) G D W HB) as H.
  destruct (fns_evaluate fl s u v) as [p|e|]; [|exact H|exact H].
  assert (0 <= B) as B0.
  { destruct (cp_in s n m 0 0 G ltac:(lia) ltac:(lia)) as (I & J). destruct (HB _ _ I J) as (A & _). pose proof (W _ _ I J) as P.
    set (w := ww _) in *. pose proof (Qcabs_nonneg (wx (cp (ns_cps s) 0 0))) as Z. pose proof (Qcle_trans _ _ _ Z A) as K. clear - K P.
    apply Qcnot_lt_le. intros L. assert (0 < - B * w) by (apply mul_pos; [qc_lra|exact P]). qc_lra. }
  destruct G as (_ & _ & _ & _ & _ & _ & H8 & H8').
  apply (double_bound (14 * (ns_du s + ns_dv s) + 9) 8) in H; [exact H| |lia|exact B0]. change (2 ^ 8)%nat with 256%nat. lia.
Qed.
