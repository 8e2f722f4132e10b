(** Rounding errors of knot insertion, as they are stated in PropsRoundInsert. *)
From Coq Require Import List ZArith QArith Qcanon Bool Lia Permutation.
From Verif Require Import Base BaseFacts LoopFacts ModelVec ModelAabb ModelNurbs SpecAabb SpecNurbs SpecCurve ModelRound ModelRoundInsert SpecRound SpecRoundInsert.
From Verif Require Import ProofBspline ProofNurbs ProofCurve ProofInsertion ProofInsertCurve ProofInsertKnot ProofNurbsTop ProofRound ProofRoundBlend ProofRoundInsert ProofRoundDouble ProofRoundAll.
From Verif Require Import ProofDerBasis.
Import ListNotations.
Open Scope Qc_scope.

Lemma exact_mult t U m : fmultiplicity_from (fun _ => Some) m t U = Ok (fold_left (fun m kv => if Qcabs (t - kv) <=? lit_1em12 then S m else m) U m).
Proof. revert m. induction U as [|a U IH]; intros m; [reflexivity|]. cbn [fmultiplicity_from rnd bind fold_left]. apply IH. Qed.
Lemma clear_separated eps U t : 0 <= eps -> eps < 1 -> clear_of eps U t -> separated U t.
Proof.
  intros E0 E1 H x Hx. destruct (H x Hx) as [A|[A|A]]; [left; exact A|right; left|right; right].
  - assert (0 < x - t). { destruct (Qclt_le_dec 0 (x - t)) as [L|L]; [exact L|]. exfalso. assert (0 <= (1 - eps) * (t - x)) by (apply mul_nonneg; qc_lra). assert (0 < tol12) by reflexivity. qc_lra. }
    assert (0 <= eps * (x - t)) by (apply mul_nonneg; qc_lra). qc_lra.
  - assert (0 < t - x). { destruct (Qclt_le_dec 0 (t - x)) as [L|L]; [exact L|]. exfalso. assert (0 <= (1 - eps) * (x - t)) by (apply mul_nonneg; qc_lra). assert (0 < tol12) by reflexivity. qc_lra. }
    assert (0 <= eps * (t - x)) by (apply mul_nonneg; qc_lra). qc_lra.
Qed.
(** the comparison with 1e-12 after a rounding *)
Lemma clear_rounded eps fl t x d : rounds eps fl -> (x = t \/ tol12 < (1 - eps) * (x - t) \/ tol12 < (1 - eps) * (t - x)) -> fl 0%nat (t - x) = Some d ->
  (Qcabs d <=? lit_1em12) = (t =? x).
Proof.
  intros (E0 & E1 & R) H F. specialize (R _ _ _ F). change lit_1em12 with tol12. destruct (Qceqb_spec t x) as [E|E].
  - subst x. replace (t - t) with 0 in R by ring. change (Qcabs 0) with 0 in R. rewrite Qcmult_0_r in R. qcb.
    replace d with (d - 0) by ring. eapply Qcle_trans; [exact R|]. discriminate.
  - assert (0 < tol12) as TP by reflexivity. destruct H as [H|H]; [congruence|]. qcb. apply Qclt_not_le || idtac.
    apply (proj2 (bd_abs _ _)) in R. destruct R as (R1 & R2).
    assert (Qcabs (t - x) = t - x \/ Qcabs (t - x) = - (t - x)) as [A|A] by (apply (Qcabs_case (t - x) (fun a => a = t - x \/ a = - (t - x))); auto); pose proof (Qcabs_nonneg (t - x)) as N; rewrite A in *.
    + assert (tol12 < d). { destruct H as [H|H]; [|qc_lra]. exfalso. assert (0 <= (1 - eps) * (t - x)) by (apply mul_nonneg; qc_lra). qc_lra. }
      eapply Qclt_le_trans; [eassumption|apply Qcle_Qcabs].
    + assert (tol12 < - d). { destruct H as [H|H]; [qc_lra|]. exfalso. assert (0 <= (1 - eps) * (x - t)) by (apply mul_nonneg; qc_lra). qc_lra. }
      eapply Qclt_le_trans; [eassumption|apply Qcopp_Qcabs].
Qed.
Lemma mult_from eps fl t U : rounds eps fl -> clear_of eps U t -> forall m,
  match fmultiplicity_from fl m t U with Ok k => k = (m + multiplicity U t)%nat | Throw e => e = ERuntime | UB => False end.
Proof.
  intros RF. induction U as [|x U IH]; intros H m; cbn [fmultiplicity_from]; [unfold multiplicity; cbn; lia|].
  unfold rnd. destruct (fl 0%nat (t - x)) as [d|] eqn:F; [|reflexivity]. cbn [bind].
  rewrite (clear_rounded eps fl t x d RF (H x (or_introl eq_refl)) F).
  specialize (IH (fun y Hy => H y (or_intror Hy)) (if t =? x then S m else m)).
  destruct (fmultiplicity_from fl _ t U) as [k|e|]; [|exact IH|exact IH]. rewrite IH. unfold multiplicity. cbn [filter]. destruct (t =? x); cbn [length]; lia.
Qed.

Lemma exact_insert c x r : finsert_knot (fun _ => Some) c x r = insert_knot c x r.
Proof.
  unfold finsert_knot, insert_knot. destruct (length (nc_cps c)) as [|n]; [reflexivity|].
  destruct (find_span _ _ _ _) as [k|e|]; [|reflexivity..]. cbn [bind]. destruct (knot_insertion_kv _ _ _ _) as [kv|e|]; [|reflexivity..]. cbn [bind].
  unfold ffind_multiplicity. rewrite exact_mult. cbn [bind]. fold (find_multiplicity x (nc_knots c)).
  change (fun (i : nat) (cp : list vec4) => v <- fv4sub_scalar (fun _ => Some) (last (nc_cps c) v4zero) (Qc_of_nat i) ;; set_nth cp i v)
    with (fun (i : nat) (cp : list vec4) => set_nth cp i (v4sub_scalar (last (nc_cps c) v4zero) (Qc_of_nat i))).
  destruct (for_up _ _ _ _) as [cp|e|]; [|reflexivity..]. cbn [bind]. unfold fknot_insertion, knot_insertion. cbv zeta.
  destruct (copy_range _ _ _ _ _) as [n1|e|]; [|reflexivity..]. cbn [bind].
  destruct (copy_range _ _ _ n1 _) as [n2|e|]; [|reflexivity..]. cbn [bind].
  destruct (copy_range _ _ _ (repeat _ _) _) as [tm|e|]; [|reflexivity..]. cbn [bind].
  erewrite (for_up_ext (finsertion_outer _ _ _ _ _ _ _)); [reflexivity|]. intros j [a b] _.
  unfold finsertion_outer, insertion_outer. destruct (Nat.ltb _ _); [reflexivity|].
  erewrite (for_up_ext (finsertion_inner _ _ _ _ _)); [reflexivity|]. intros i l _.
  unfold finsertion_inner, insertion_inner, falpha, knot_insertion_alpha.
  destruct (getZ _ _) as [y|e|]; [|reflexivity..]. cbn [bind]. destruct (getZ _ (_ + 1)) as [z|e|]; [|reflexivity..]. cbn [bind rnd].
  destruct (qdiv _ _) as [q|e|]; [|reflexivity..]. reflexivity.
Qed.

Lemma bind_assoc {A B C} (x : res A) (f : A -> res B) (g : B -> res C) : bind (bind x f) g = bind x (fun a => bind (f a) g).
Proof. destruct x; reflexivity. Qed.
Lemma update_cps c a b k c1 : update_interval (nc_set_knots (nc_set_cps c a) k) = Ok c1 ->
  nc_cps c1 = a /\ update_interval (nc_set_knots (nc_set_cps c b) k) = Ok (nc_set_cps c1 b).
Proof.
  unfold update_interval. cbn [nc_set_knots nc_set_cps nc_knots]. destruct (min_of k) as [x|e|]; [|discriminate..]. cbn [bind].
  destruct (max_of k) as [y|e|]; [|discriminate..]. cbn [bind]. intros E. injection E as <-. split; reflexivity.
Qed.

Section Curve.
Variables (eps : Qc) (fl : nat -> Qc -> option Qc).
Hypothesis RF : rounds eps fl.
Notation u1 := (1 - eps).

Lemma insert_follows c n x r B W c' : good_curve c n -> knot (nc_knots c) (nc_degree c) <= x -> x < knot (nc_knots c) (n + 1) ->
  clear_of eps (nc_knots c) x -> (r + multiplicity (nc_knots c) x <= nc_degree c)%nat -> coords_up_to B (nc_cps c) -> weights_up_to W (nc_cps c) ->
  insert_knot c x r = Ok c' ->
  match finsert_knot fl c x r with
  | Ok d => d = nc_set_cps c' (nc_cps d) /\ vrows (fun _ => v4near eps (8 * r) B W) (nc_cps c') (nc_cps d)
  | Throw e => e = ERuntime
  | UB => False
  end.
Proof.
  intros (HP & V & H8) K1 K2 CL Hr HB HW E. pose proof (clear_separated _ _ _ (proj1 RF) (proj1 (proj2 RF)) CL) as SEP. destruct (domain_span n _ _ x V K1 K2) as (k & Hk & T1 & T2). pose proof V as (Hpn & HL & HS & HN).
  destruct (multiplicity_span (nc_knots c) k x HS ltac:(lia) T1 T2) as (S1 & S2 & S3).
  unfold insert_knot in E. unfold finsert_knot. rewrite HP in *. replace (S n - 1)%nat with n in * by lia.
  pose proof (sorted_mono _ HS) as M.
  rewrite (find_span_at n (nc_degree c) (nc_knots c) k x M) in * by (lia || assumption). cbn [bind] in *.
  rewrite kv_spec in * by lia. cbn [bind] in *. rewrite find_multiplicity_spec in E by assumption.
  pose proof (mult_from eps fl x (nc_knots c) RF CL 0) as MF. unfold ffind_multiplicity. destruct (fmultiplicity_from fl 0 x (nc_knots c)) as [mu|e|]; [|exact MF|exact MF].
  cbn [Nat.add] in MF. subst mu. cbn [bind].
  destruct (for_up (r + 1) 0 (fun i cp => set_nth cp i (v4sub_scalar (last (nc_cps c) v4zero) (Qc_of_nat i))) (resize (nc_cps c) (S n + r))) as [cp0|e|] eqn:E0; [|discriminate E..].
  cbn [bind] in E.
  assert (follows (fun (_ : unit) (l : list vec4) => length l = (S n + r)%nat) (for_up (r + 1) 0 (fun _ _ => Ok tt) tt)
    (for_up (r + 1) 0 (fun i cp => v <- fv4sub_scalar fl (last (nc_cps c) v4zero) (Qc_of_nat i) ;; set_nth cp i v) (resize (nc_cps c) (S n + r)))) as F0.
  { apply (follows_for (fun _ (_ : unit) (l : list vec4) => length l = (S n + r)%nat)).
    - apply resize_length.
    - intros i [] l _ Hi L. unfold fv4sub_scalar. set (q := last (nc_cps c) v4zero).
      assert (forall o y (g : Qc -> res (list vec4)), (forall z, follows (fun (_ : unit) (l : list vec4) => length l = (S n + r)%nat) (Ok tt) (g z)) ->
        follows (fun (_ : unit) (l : list vec4) => length l = (S n + r)%nat) (Ok tt) (bind (rnd fl o y) g)) as ST.
      { intros o y g H. apply (follows_rnd eps fl RF). intros z _. apply H. }
      rewrite !bind_assoc. apply ST. intros a. rewrite !bind_assoc. apply ST. intros b. rewrite !bind_assoc. apply ST. intros d. rewrite !bind_assoc. apply ST. intros w. cbn [bind].
      destruct (set_nth_ok l i (V4 a b d w)) as (l' & E' & L' & _); [lia|]. rewrite E'. cbn [follows]. lia. }
  assert (for_up (r + 1) 0 (fun (_ : nat) (_ : unit) => Ok tt) tt = Ok tt) as U0 by (generalize 0%nat, (r + 1)%nat; intros a m; revert a; induction m as [|m IH]; intros a; cbn [for_up bind]; [reflexivity|apply IH]).
  rewrite U0 in F0. destruct (for_up (r + 1) 0 (fun i cp => v <- fv4sub_scalar fl (last (nc_cps c) v4zero) (Qc_of_nat i) ;; set_nth cp i v) (resize (nc_cps c) (S n + r))) as [cp0'|e|]; [|exact F0|exact F0]. cbn [bind].
  pose proof (insertion_follows eps fl RF (nc_knots c) (nc_cps c) k (nc_degree c) (multiplicity (nc_knots c) x) r n x B W M T1 T2) as F.
  specialize (F ltac:(lia) ltac:(lia) HL HP H8 Hr).
  assert (forall q, In q (nc_cps c) -> bd (wx q) B /\ bd (wy q) B /\ bd (wz q) B /\ bd (ww q) W) as HQ.
  { intros q Hq. destruct (HB q Hq) as (A1 & A2 & A3). pose proof (HW q Hq) as A4. rewrite !bd_abs. auto. }
  specialize (F HQ cp0 cp0').
  destruct (knot_insertion _ _ _ _ _ _ _ cp0) as [cp|e|]; [|discriminate E..]. cbn [bind] in E.
  destruct (fknot_insertion _ _ _ _ _ _ _ _ cp0') as [cp'|e|]; cbn [follows] in F; [|exact F|exact F]. cbn [bind].
  destruct (update_cps c cp cp' _ c' E) as (Ec & ->). split; [reflexivity|]. rewrite Ec. exact F.
Qed.
End Curve.

Lemma v4near_differs eps k B W a b : 0 <= eps -> eps < 1 -> v4near eps k B W a b -> point_differs_at_most eps k B (xyz a) (xyz b) /\ differs_at_most eps k W (ww a) (ww b).
Proof.
  intros E0 E1 (X & Y & Z & V). assert (0 < 1 - eps) by qc_lra. assert (1 - eps <= 1) by qc_lra.
  split; [split; [|split]|]; (eapply near_differs; [eassumption|eassumption|reflexivity|eassumption|apply Qcle_refl]).
Qed.

Lemma insert_round eps fl c n x r B W c' : rounds eps fl -> good_curve c n -> knot (nc_knots c) (nc_degree c) <= x -> x < knot (nc_knots c) (n + 1) ->
  clear_of eps (nc_knots c) x -> (r + multiplicity (nc_knots c) x <= nc_degree c)%nat -> coords_up_to B (nc_cps c) -> weights_up_to W (nc_cps c) ->
  insert_knot c x r = Ok c' ->
  match finsert_knot fl c x r with
  | Ok d => same_but_points c' d /\ points_differ eps (8 * r) B W (nc_cps c') (nc_cps d)
  | Throw e => e = ERuntime
  | UB => False
  end.
Proof.
  intros RF G T1 T2 SEP Hr HB HW E. pose proof (insert_follows eps fl RF c n x r B W c' G T1 T2 SEP Hr HB HW E) as F.
  destruct (finsert_knot fl c x r) as [d|e|]; [|exact F|exact F]. destruct F as (Ed & L & K). split.
  - rewrite Ed. unfold same_but_points. cbn. auto.
  - split; [symmetry; exact L|]. intros i a b Ea Eb. assert (i < length (nc_cps c'))%nat as Hi by (apply nth_error_Some; rewrite Ea; discriminate).
    specialize (K i Hi). cbv beta in K. rewrite (nth_error_nth _ _ d4 Ea), (nth_error_nth _ _ d4 Eb) in K. destruct RF as (R1 & R2 & _). apply v4near_differs; assumption.
Qed.

(** ** moving control points and weights a little *)
Lemma sum_bd N f n K : (forall i, (i < n)%nat -> 0 <= N i) -> (forall i, (i < n)%nat -> bd (f i) K) -> bd (qsum (fun i => N i * f i) n) (K * qsum N n).
Proof.
  intros HN HF. induction n as [|n IH]; cbn [qsum].
  - rewrite Qcmult_0_r. split; apply Qcle_refl.
  - rewrite Qcmult_plus_distr_r. apply bd_add; [apply IH; intros; [apply HN|apply HF]; lia|].
    assert (0 <= N n) as H by (apply HN; lia). rewrite (Qcmult_comm K). apply bd_mul; [split; qc_lra|apply HF; lia].
Qed.
Lemma moved N w x y n B e : (forall i, (i < n)%nat -> 0 <= N i) -> qsum N n = 1 -> 0 <= B -> 0 <= e -> e + e + e <= 1 ->
  (forall i, (i < n)%nat -> bd (w i - 1) e /\ bd (x i) B /\ bd (y i - x i) (e * B)) ->
  bd (qsum (fun i => N i * w i * y i) n / qsum (fun i => N i * w i) n - qsum (fun i => N i * x i) n) ((e + e + e + e) * B) /\
  0 < qsum (fun i => N i * w i) n.
Proof.
  intros HN H1 B0 E0 E3 H.
  set (S := qsum (fun i => N i * w i) n).
  assert (bd (S - 1) e) as HS.
  { pose proof (sum_bd N (fun i => w i - 1) n e HN (fun i Hi => proj1 (H i Hi))) as K. rewrite H1, Qcmult_1_r in K.
    rewrite (qsum_ext _ (fun i => N i * w i + (- (1)) * N i)) in K by (intros; ring). rewrite qsum_add, qsum_scale, H1 in K. fold S in K.
    replace (S - 1) with (S + - (1) * 1) by ring. exact K. }
  assert (1 - e <= S) as S1 by (destruct HS; qc_lra). assert (0 < S) as SP by qc_lra. split; [|exact SP].
  assert (S <> 0) as NZ by (intros Q; rewrite Q in SP; discriminate SP).
  set (X := qsum (fun i => N i * x i) n). set (Y := qsum (fun i => N i * w i * y i) n).
  assert (bd (Y - S * X) (e * B * S + (e + e) * B)) as K.
  { assert (Y - S * X = qsum (fun i => (N i * w i) * (y i - x i)) n + qsum (fun i => N i * ((w i - S) * x i)) n) as ->.
    { unfold Y. rewrite (qsum_ext (fun i => N i * w i * y i) (fun i => (N i * w i * (y i - x i) + N i * ((w i - S) * x i)) + S * (N i * x i))) by (intros; ring).
      rewrite !qsum_add, qsum_scale. fold X. ring. }
    apply bd_add.
    - apply (sum_bd (fun i => N i * w i)).
      + intros i Hi. apply mul_nonneg; [apply HN, Hi|]. destruct (H i Hi) as ((A1 & A2) & _). qc_lra.
      + intros i Hi. apply H, Hi.
    - rewrite <- (Qcmult_1_r ((e + e) * B)). rewrite <- H1. apply sum_bd; [exact HN|]. intros i Hi. destruct (H i Hi) as (A & C & _).
      apply bd_mul; [|exact C]. replace (w i - S) with ((w i - 1) + (1 - S)) by ring. apply bd_add; [exact A|]. destruct HS. split; qc_lra. }
  assert (S * / S = 1) as I1 by (apply Qcmult_inv_r; exact NZ). pose proof (lt_le _ _ (Qcinv_pos _ SP)) as IP.
  replace (Y / S - X) with ((Y - S * X) * / S) by (replace X with (X * (S * / S)) at 2 by (rewrite I1; ring); unfold Qcdiv; ring).
  apply bd_mono with ((e * B * S + (e + e) * B) * / S).
  - apply bd_mul; [exact K|]. split; qc_lra.
  - apply Qcle_trans with (((e + e + e + e) * B * S) * / S).
    + apply Qcmult_le_compat_r; [|exact IP]. assert (0 <= e * B * (S + S + S - (1 + 1))) by (apply mul_nonneg; [apply mul_nonneg|]; qc_lra). qc_lra.
    + replace ((e + e + e + e) * B * S * / S) with ((e + e + e + e) * B * (S * / S)) by ring. rewrite I1, Qcmult_1_r. apply Qcle_refl.
Qed.

Lemma moved_point U n p u P Q B e : valid_knots n p U -> in_domain n p U u -> unit_weights P -> length P = S n -> length Q = S n -> 0 <= B -> 0 <= e -> e + e + e <= 1 ->
  (forall i, (i < S n)%nat -> bd (ww (nth i Q d4) - 1) e /\ (forall f, f = wx \/ f = wy \/ f = wz -> bd (f (nth i P d4)) B /\ bd (f (nth i Q d4) - f (nth i P d4)) (e * B))) ->
  point_within ((e + e + e + e) * B) (rational_point U n p P u) (rational_point U n p Q u).
Proof.
  intros V D UP LP LQ B0 E0 E3 H.
  assert (weight_at U n p P u = 1) as WP.
  { unfold weight_at. rewrite <- (partition_all n p U u V D). apply qsum_ext. intros i Hi. change (V4 0 0 0 0) with d4. rewrite (UP (nth i P d4)) by (apply nth_In; lia). ring. }
  assert (forall f, f = wx \/ f = wy \/ f = wz -> Qcabs (weighted_at f U n p Q u / weight_at U n p Q u - weighted_at f U n p P u / weight_at U n p P u) <= (e + e + e + e) * B) as K.
  { intros f Hf. apply (proj1 (bd_abs _ _)). rewrite WP. replace (weighted_at f U n p P u / 1) with (qsum (fun i => basis_at U n p u i * f (nth i P d4)) (S n)).
    - change (V4 0 0 0 0) with d4. apply (moved (basis_at U n p u) (fun i => ww (nth i Q d4)) (fun i => f (nth i P d4)) (fun i => f (nth i Q d4)) (S n) B e); try assumption.
      + intros i _. apply basis_at_nonneg; assumption.
      + apply partition_all; assumption.
      + intros i Hi. destruct (H i Hi) as (A & C). destruct (C f Hf). auto.
    - unfold Qcdiv. replace (/ 1) with 1 by reflexivity. rewrite Qcmult_1_r. apply qsum_ext. intros i Hi. change (V4 0 0 0 0) with d4. rewrite (UP (nth i P d4)) by (apply nth_In; lia). ring. }
  unfold point_within, rational_point. cbv zeta. cbn [vx vy vz]. split; [|split]; apply K; auto.
Qed.

(** ** doubles *)
Lemma near_double k b B x y : (k <= 2 ^ b)%nat -> (b <= 52)%nat -> near (1 - p2 (-53)) k x B y -> bd (y - x) (p2 (Z.of_nat b - 52) * B).
Proof.
  intros Hk Hb N. assert (0 < 1 - p2 (-53)) as T0 by reflexivity. assert (1 - p2 (-53) <= 1) as T1 by discriminate.
  pose proof (near_size _ k x B y N) as B0.
  assert (ofN k * p2 (-53) <= p2 (Z.of_nat b - 53)) as K.
  { apply Qcle_trans with (p2 (Z.of_nat b) * p2 (-53)).
    - rewrite (Qcmult_comm (ofN k)), (Qcmult_comm (p2 (Z.of_nat b))). apply mul_le_l; [apply lt_le, p2_pos|].
      rewrite <- ofZ_p2 by lia. apply ofZ_le. apply inj_le in Hk. rewrite Nat2Z.inj_pow in Hk. exact Hk.
    - rewrite <- p2_add. replace (Z.of_nat b + -53)%Z with (Z.of_nat b - 53)%Z by lia. apply Qcle_refl. }
  assert (ofN k * p2 (-53) <= half) as HF. { eapply Qcle_trans; [exact K|]. change half with (p2 (-1)). apply p2_mono. lia. }
  pose proof (differs_within (p2 (-53)) k B x y (lt_le _ _ (p2_pos _)) eq_refl B0 HF (near_differs _ T0 T1 _ k x B y B eq_refl N (Qcle_refl B))) as D.
  apply (proj2 (bd_abs _ _)). eapply Qcle_trans; [exact D|]. rewrite !(Qcmult_comm _ B). apply mul_le_l; [exact B0|].
  replace (Z.of_nat b - 52)%Z with (Z.of_nat b - 53 + 1)%Z by lia. rewrite p2_step. apply Qcplus_le_compat; exact K.
Qed.

Lemma near_curve fl c' d m k B : in_doubles fl -> good_curve c' m -> unit_weights (nc_cps c') -> nc_degree d = nc_degree c' -> nc_knots d = nc_knots c' ->
  (k <= 64)%nat -> 0 <= B -> vrows (fun _ => v4near (p2 (-53)) k B 1) (nc_cps c') (nc_cps d) ->
  good_curve d m /\ positive_weights (nc_cps d) /\
  (forall i, (i < S m)%nat -> bd (ww (nth i (nc_cps d) d4) - 1) (p2 (-46)) /\ (forall f, f = wx \/ f = wy \/ f = wz -> bd (f (nth i (nc_cps c') d4)) B /\ bd (f (nth i (nc_cps d) d4) - f (nth i (nc_cps c') d4)) (p2 (-46) * B))) /\
  forall u, in_curve c' m u -> in_curve d m u /\ exists p q, evaluate c' u = Ok p /\ evaluate d u = Ok q /\ point_within (p2 (-44) * B) p q /\
    match fevaluate fl d u with
    | Ok q' => point_within (p2 (-43) * B) p q'
    | Throw e => e = ERuntime
    | UB => False
    end.
Proof.
  intros FD G' UW' DD DK R6 B0 (L & K). set (e := p2 (-46)) in *. pose proof G' as (LC & V' & H8). assert (length (nc_cps d) = S m) as LD by lia.
  assert (forall i, (i < S m)%nat -> bd (ww (nth i (nc_cps d) d4) - 1) e /\ (forall f, f = wx \/ f = wy \/ f = wz -> bd (f (nth i (nc_cps c') d4)) B /\ bd (f (nth i (nc_cps d) d4) - f (nth i (nc_cps c') d4)) (e * B))) as H.
  { intros i Hi. assert (i < length (nc_cps c'))%nat as Hl by lia. specialize (K i Hl). cbv beta in K. destruct K as (X & Y & Z & Wt). split.
    - apply (near_double _ 6) in Wt; [|exact R6|lia]. rewrite (UW' (nth i (nc_cps c') d4)) in Wt by (apply nth_In; exact Hl). rewrite Qcmult_1_r in Wt. exact Wt.
    - intros f Hf. assert (near (1 - p2 (-53)) k (f (nth i (nc_cps c') d4)) B (f (nth i (nc_cps d) d4))) as N by (destruct Hf as [-> | [-> | ->]]; assumption).
      split; [destruct N as (N1 & N2 & _); split; assumption|]. apply (near_double _ 6) in N; [exact N|exact R6|lia]. }
  assert (good_curve d m) as GD. { unfold good_curve. rewrite DD, DK. auto. }
  assert (positive_weights (nc_cps d)) as PD.
  { intros q Hq. apply (In_nth _ _ d4) in Hq. destruct Hq as (i & Hi & <-). destruct (H i ltac:(lia)) as ((A1 & A2) & _). assert (e < 1) by reflexivity. qc_lra. }
  assert (coords_up_to ((1 + e) * B) (nc_cps d)) as CD.
  { intros q Hq. apply (In_nth _ _ d4) in Hq. destruct Hq as (i & Hi & <-). destruct (H i ltac:(lia)) as (_ & A). rewrite <- !bd_abs.
    assert (forall f, f = wx \/ f = wy \/ f = wz -> bd (f (nth i (nc_cps d) d4)) ((1 + e) * B)) as KK; [|split; [apply KK; auto|split; apply KK; auto]].
    intros f Hf. destruct (A f Hf) as (A1 & A2). replace (f (nth i (nc_cps d) d4)) with ((f (nth i (nc_cps c') d4)) + (f (nth i (nc_cps d) d4) - f (nth i (nc_cps c') d4))) by ring.
    replace ((1 + e) * B) with (B + e * B) by ring. apply bd_add; assumption. }
  split; [exact GD|]. split; [exact PD|]. split; [exact H|]. intros u Hu'.
  assert (in_curve d m u) as Hd by (unfold in_curve in *; rewrite DD, DK; exact Hu'). split; [exact Hd|].
  pose proof (evaluate_positive c' m u LC V' H8 Hu' (unit_positive _ UW')) as Ep.
  pose proof GD as (_ & VD & HD8). pose proof (evaluate_positive d m u LD VD HD8 Hd PD) as Eq.
  exists (rational_point (nc_knots c') m (nc_degree c') (nc_cps c') u), (rational_point (nc_knots d) m (nc_degree d) (nc_cps d) u). split; [exact Ep|]. split; [exact Eq|].
  set (p := rational_point (nc_knots c') m (nc_degree c') (nc_cps c') u).
  assert (point_within (p2 (-44) * B) p (rational_point (nc_knots d) m (nc_degree d) (nc_cps d) u)) as PW.
  { unfold p. rewrite DK, DD. replace (p2 (-44)) with (e + e + e + e) by (apply Qc_is_canon; reflexivity).
    apply moved_point; try assumption; [apply lt_le, p2_pos|discriminate]. }
  split; [exact PW|].
  pose proof (curve_double fl d m ((1 + e) * B) u FD GD Hd PD CD) as CU.
  destruct (fevaluate fl d u) as [q'|er|]; [|exact CU|exact CU].
  assert (p2 (-44) * B + p2 (-45) * ((1 + e) * B) <= p2 (-43) * B) as SUM.
  { replace (p2 (-44) * B + p2 (-45) * ((1 + e) * B)) with ((p2 (-44) + p2 (-45) * (1 + e)) * B) by ring. apply Qcmult_le_compat_r; [|exact B0]. vm_compute. discriminate. }
  destruct PW as (X1 & X2 & X3), CU as (Y1 & Y2 & Y3).
  assert (forall a b d, Qcabs (b - a) <= p2 (-44) * B -> Qcabs (d - b) <= p2 (-45) * ((1 + e) * B) -> Qcabs (d - a) <= p2 (-43) * B) as TR.
  { intros a b f A1 A2. apply (proj2 (bd_abs _ _)) in A1, A2. apply (proj1 (bd_abs _ _)). apply (bd_mono _ (p2 (-44) * B + p2 (-45) * ((1 + e) * B))); [|exact SUM].
    replace (f - a) with ((b - a) + (f - b)) by ring. apply bd_add; assumption. }
  split; [exact (TR _ _ _ X1 Y1)|]. split; [exact (TR _ _ _ X2 Y2)|exact (TR _ _ _ X3 Y3)].
Qed.

Lemma insert_double fl c n x r B d : in_doubles fl -> good_curve c n -> knot (nc_knots c) (nc_degree c) <= x -> x < knot (nc_knots c) (n + 1) ->
  clear_of (p2 (-53)) (nc_knots c) x -> (r + multiplicity (nc_knots c) x <= nc_degree c)%nat -> unit_weights (nc_cps c) -> coords_up_to B (nc_cps c) ->
  finsert_knot fl c x r = Ok d ->
  good_curve d (n + r) /\ positive_weights (nc_cps d) /\ Permutation (nc_knots d) (repeat x r ++ nc_knots c) /\
  forall u, in_curve c n u -> in_curve d (n + r) u /\ exists p q, evaluate c u = Ok p /\ evaluate d u = Ok q /\ point_within (p2 (-44) * B) p q /\
    match fevaluate fl d u with
    | Ok q' => point_within (p2 (-43) * B) p q'
    | Throw e => e = ERuntime
    | UB => False
    end.
Proof.
  intros FD G T1 T2 CL Hr UW HB E. pose proof (in_doubles_rounds fl FD) as RF. pose proof (clear_separated _ _ _ (proj1 RF) (proj1 (proj2 RF)) CL) as SEP.
  destruct (insert_top c n x r G T1 T2 SEP Hr) as (c' & Ec & G' & Deg & Perm & Srt & Len & Per & Box & Int & Dom & Un).
  destruct (Un UW) as (UW' & Ev).
  assert (weights_up_to 1 (nc_cps c)) as HW. { intros q Hq. rewrite (UW q Hq). discriminate. }
  pose proof (insert_follows _ fl RF c n x r B 1 c' G T1 T2 CL Hr HB HW Ec) as F. rewrite E in F. destruct F as (Ed & K).
  assert (0 <= B) as B0. { destruct G as (LP & _). destruct (nc_cps c) as [|q P]; [discriminate LP|]. destruct (HB q (or_introl eq_refl)) as (A & _). eapply Qcle_trans; [apply Qcabs_nonneg|exact A]. }
  assert (nc_degree d = nc_degree c' /\ nc_knots d = nc_knots c') as (DD & DK) by (rewrite Ed; split; reflexivity).
  destruct (near_curve fl c' d (n + r) (8 * r) B FD G' UW' DD DK) as (GD & PD & _ & EV); [destruct G as (_ & _ & H8); lia|exact B0|exact K|].
  split; [exact GD|]. split; [exact PD|]. split; [rewrite DK; exact Perm|]. intros u Hu.
  destruct (EV u (proj2 (Dom u) Hu)) as (Hd & p & q & Ep' & Rest). split; [exact Hd|]. destruct (Ev u Hu) as (p' & Ep & Eq).
  rewrite Ep' in Eq. injection Eq as <-. exists p, q. split; [exact Ep|exact Rest].
Qed.
