(** The derivative theorems in the form they are stated. *)
From Coq Require Import List ZArith QArith Qcanon Lia Bool.
From Verif Require Import Base BaseFacts ModelVec ModelAabb ModelNurbs ModelDerivative SpecAabb SpecNurbs SpecCurve SpecDerivative LoopFacts
  ProofBspline ProofNurbs ProofInsertCurve ProofInsertKnot ProofCurve ProofNurbsMisc ProofNurbsTop ProofMinimize ProofSmooth ProofDerBasis ProofDerivative.
Import ListNotations.
Open Scope Qc_scope.

(** ** curve_derivs_alg1 *)
Definition v4sum (f : nat -> Qc) (P : nat -> vec4) (n : nat) : vec4 :=
  V4 (qsum (fun i => f i * wx (P i)) n) (qsum (fun i => f i * wy (P i)) n) (qsum (fun i => f i * wz (P i)) n) (qsum (fun i => f i * ww (P i)) n).
Lemma ck_add_sum f P n : ck_add (v4sum f P n) (f n) (P n) = v4sum f P (S n).
Proof. reflexivity. Qed.

Definition CK_at (U : list Qc) (P : list vec4) (u : Qc) (p s k : nat) : vec4 := v4sum (fun r => bspd (knot U) s k p (s - p + r) u) (fun r => nth (s - p + r) P d4) (S p).

Lemma curve_derivs_spec n p U P u d periodic s : (p <= 3)%nat -> valid_knots n p U -> in_domain n p U u -> length P = S n -> find_span n p u U = Ok s ->
  (p <= s)%nat -> is_span (knot U) n s u ->
  curve_derivs_alg1 n p U P u d periodic = Ok (map (CK_at U P u p s) (seq 0 (Nat.min d p + 1))).
Proof.
  intros Hp V D HP E Hs I. unfold curve_derivs_alg1. rewrite E. cbn [bind]. set (du := Nat.min d p). assert (du <= p)%nat as Hdu by (unfold du; lia). clearbody du.
  pose proof V as (Hpn & HL & So & N). pose proof (valid_span_ok _ _ _ _ _ V I) as SO. pose proof I as (Hsn & _).
  destruct (ders_spec U u p du s Hp Hdu (sorted_mono _ So) SO Hs ltac:(lia)) as (ders & Ed & Ld & R). rewrite Ed. cbn [bind].
  match goal with |- for_up _ _ ?b _ = _ => set (body := b) end.
  assert (exists CK, for_up (du + 1) 0 body (repeat v4zero (du + 1)) = Ok CK /\ length CK = (du + 1)%nat /\ forall k, (k < du + 1)%nat -> nth k CK v4zero = CK_at U P u p s k) as (CK & EC & LC & HC).
  { destruct (for_up_inv (fun k CK => length CK = (du + 1)%nat /\ (forall j, (j < k)%nat -> nth j CK v4zero = CK_at U P u p s j) /\ (forall j, (k <= j < du + 1)%nat -> nth j CK v4zero = v4zero)) body (du + 1) 0 (repeat v4zero (du + 1))) as (CK & EC & LC & HC & _).
    - split; [apply repeat_length|]. split; [lia|]. intros j Hj. apply nth_repeat.
    - intros k CK Hk0 Hk (LC & HB & HA). unfold body.
      match goal with |- exists s', for_up _ _ ?b _ = _ /\ _ => set (inner := b) end.
      destruct (for_up_inv (fun j CK' => length CK' = (du + 1)%nat /\ nth k CK' v4zero = v4sum (fun r => bspd (knot U) s k p (s - p + r) u) (fun r => nth (s - p + r) P d4) j /\
        forall i, i <> k -> nth i CK' v4zero = nth i CK v4zero) inner (p + 1) 0 CK) as (CK' & E' & L' & H' & O').
      + split; [assumption|]. split; [rewrite HA by lia; reflexivity|auto].
      + intros j CK1 Hj0 Hj (L1 & H1 & O1). unfold inner. cbv zeta.
        assert (0 <= Z.of_nat s - Z.of_nat p + Z.of_nat j < Z.of_nat (length P))%Z as Bj by lia.
        set (idx := if periodic then ((Z.of_nat s - Z.of_nat p + Z.of_nat j + Z.of_nat (length P)) mod Z.of_nat (length P))%Z else (Z.of_nat s - Z.of_nat p + Z.of_nat j)%Z).
        assert (idx = Z.of_nat (s - p + j)) as ->.
        { unfold idx. destruct periodic; [|lia]. rewrite <- (Z.mul_1_l (Z.of_nat (length P))) at 1. rewrite Z_mod_plus_full, Z.mod_small by lia. lia. }
        rewrite (getZ_ok P _ d4) by lia. cbn [bind]. rewrite R by lia. cbn [bind]. rewrite (get_ok CK1 k v4zero) by lia. cbn [bind].
        destruct (set_nth_ok CK1 k (ck_add (nth k CK1 v4zero) (bspd (knot U) s k p (s - p + j) u) (nth (Z.to_nat (Z.of_nat (s - p + j))) P d4)) ltac:(lia)) as (CK2 & E2 & L2 & G2).
        exists CK2. split; [exact E2|]. split; [lia|]. split.
        * rewrite G2, Nat.eqb_refl, H1, Nat2Z.id. rewrite <- ck_add_sum. reflexivity.
        * intros i Hi. rewrite G2. destruct (Nat.eqb_spec i k); [contradiction|auto].
      + rewrite E'. exists CK'. split; [reflexivity|]. split; [assumption|]. split.
        * intros j Hj. destruct (Nat.eq_dec j k) as [->|Nk]; [rewrite H'; unfold CK_at; rewrite Nat.add_1_r; reflexivity|]. rewrite O' by assumption. apply HB. lia.
        * intros j Hj. rewrite O' by lia. apply HA. lia.
    - exists CK. split; [exact EC|]. split; [exact LC|]. intros k Hk. apply HC. lia. }
  rewrite EC. f_equal. apply (nth_ext_len _ _ v4zero); [rewrite map_length, seq_length; exact LC|]. intros k Hk. rewrite HC by lia.
  rewrite (nth_indep _ v4zero (CK_at U P u p s 0)) by (rewrite map_length, seq_length; lia). rewrite map_nth, seq_nth by lia. reflexivity.
Qed.

Lemma CK_point c n t k s : in_curve c n t -> good_curve c n -> is_span (knot (nc_knots c)) n s t -> (nc_degree c <= s)%nat ->
  V3 (wx (CK_at (nc_knots c) (nc_cps c) t (nc_degree c) s k)) (wy (CK_at (nc_knots c) (nc_cps c) t (nc_degree c) s k)) (wz (CK_at (nc_knots c) (nc_cps c) t (nc_degree c) s k)) =
  point_k c n k t.
Proof.
  intros D (HP & V & H8) I Hs. unfold point_k. rewrite !(phi_span _ _ _ _ _ _ s V D I). unfold dsum, CK_at, v4sum. cbn [wx wy wz]. pose proof I as (Hsn & _).
  f_equal; symmetry; rewrite (bspd_sum_support (knot (nc_knots c)) s k (nc_degree c) t) by lia; reflexivity.
Qed.

Lemma get_map_seq {A} (f : nat -> A) m i : (i < m)%nat -> get (map f (seq 0 m)) i = Ok (f i).
Proof.
  intros H. rewrite (get_ok _ i (f 0%nat)) by (rewrite map_length, seq_length; exact H). rewrite map_nth, seq_nth by exact H. reflexivity.
Qed.
Lemma get_over {A} (l : list A) i : (length l <= i)%nat -> get l i = UB.
Proof. intros H. unfold get. apply nth_error_None in H. rewrite H. reflexivity. Qed.

Lemma derivative_point c n t : good_curve c n -> (1 <= nc_degree c <= 3)%nat -> in_curve c n t -> nc_derivative c t = Ok (point_k c n 1 t).
Proof.
  intros G Hp D. pose proof G as (HP & V & H8). destruct (sp_ok _ _ _ _ V D) as (E & Hs & I). unfold nc_derivative. rewrite HP.
  rewrite (curve_derivs_spec n (nc_degree c) _ _ t 1 _ _ ltac:(lia) V D HP E Hs I). cbn [bind]. rewrite get_map_seq by lia. cbn [bind]. f_equal. apply CK_point; assumption.
Qed.

Lemma mapM_map {A B} (f : A -> res B) (g : A -> B) l : (forall a, In a l -> f a = Ok (g a)) -> mapM f l = Ok (map g l).
Proof.
  induction l as [|a l IH]; intros H; [reflexivity|]. cbn [mapM map]. rewrite H by (left; reflexivity). cbn [bind]. rewrite IH by (intros; apply H; right; assumption). reflexivity.
Qed.

Lemma derivatives_points c n t d : good_curve c n -> (nc_degree c <= 3)%nat -> (d <= nc_degree c + 1)%nat -> in_curve c n t ->
  nc_derivatives c t d = Ok (map (fun k => point_k c n k t) (seq 0 d)).
Proof.
  intros G Hp Hd D. pose proof G as (HP & V & H8). destruct (sp_ok _ _ _ _ V D) as (E & Hs & I). unfold nc_derivatives. rewrite HP.
  rewrite (curve_derivs_spec n (nc_degree c) _ _ t d _ _ ltac:(lia) V D HP E Hs I). cbn [bind].
  apply mapM_map. intros k Hk. apply in_seq in Hk. rewrite get_map_seq by lia. cbn [bind]. f_equal. apply CK_point; assumption.
Qed.

Lemma mapM_stop {A B} (f : A -> res B) l a : (forall x, In x l -> (exists y, f x = Ok y) \/ f x = UB) -> In a l -> f a = UB -> mapM f l = UB.
Proof.
  induction l as [|x l IH]; intros H Ha E; [destruct Ha|]. cbn [mapM]. destruct (H x (or_introl eq_refl)) as [(y & Ex)|Ex]; rewrite Ex; cbn [bind]; [|reflexivity].
  destruct Ha as [->|Ha]; [congruence|]. rewrite (IH (fun x Hx => H x (or_intror Hx)) Ha E). reflexivity.
Qed.

Lemma derivatives_over c n t d : good_curve c n -> (nc_degree c <= 3)%nat -> (nc_degree c + 2 <= d)%nat -> in_curve c n t -> nc_derivatives c t d = UB.
Proof.
  intros G Hp Hd D. pose proof G as (HP & V & H8). destruct (sp_ok _ _ _ _ V D) as (E & Hs & I). unfold nc_derivatives. rewrite HP.
  rewrite (curve_derivs_spec n (nc_degree c) _ _ t d _ _ ltac:(lia) V D HP E Hs I). cbn [bind].
  apply (mapM_stop _ _ (nc_degree c + 1)%nat).
  - intros k Hk. apply in_seq in Hk. destruct (Nat.lt_ge_cases k (Nat.min d (nc_degree c) + 1)) as [L|L]; [left; eexists; rewrite get_map_seq by exact L; reflexivity|].
    right. rewrite get_over by (rewrite map_length, seq_length; exact L). reflexivity.
  - apply in_seq. lia.
  - rewrite get_over by (rewrite map_length, seq_length; lia). reflexivity.
Qed.

Lemma derivative_zero c n t : good_curve c n -> nc_degree c = 0%nat -> in_curve c n t -> nc_derivative c t = UB.
Proof.
  intros G Hp D. pose proof G as (HP & V & H8). destruct (sp_ok _ _ _ _ V D) as (E & Hs & I). unfold nc_derivative. rewrite HP.
  rewrite (curve_derivs_spec n (nc_degree c) _ _ t 1 _ _ ltac:(lia) V D HP E Hs I). cbn [bind]. rewrite get_over; [reflexivity|]. rewrite map_length, seq_length. lia.
Qed.

(** ** degree 4 and more *)
Lemma ndu_four (fa fb : nat -> Qc) u : (forall i j, (1 <= i <= 4)%nat -> (1 <= j <= 4)%nat -> fa i < fb j) ->
  forall ndu, row_put (repeat v4zero DEG_STACK_SIZE) 0 0 1 = Ok ndu -> for_up 4 1 (ndu_outer_f fa fb u) (ndu, zeros, zeros) = Throw EInvalidArgument.
Proof.
  intros H ndu E.
  pose proof (H 1 1 ltac:(lia) ltac:(lia))%nat. pose proof (H 1 2 ltac:(lia) ltac:(lia))%nat. pose proof (H 1 3 ltac:(lia) ltac:(lia))%nat.
  pose proof (H 2 1 ltac:(lia) ltac:(lia))%nat. pose proof (H 2 2 ltac:(lia) ltac:(lia))%nat. pose proof (H 2 3 ltac:(lia) ltac:(lia))%nat.
  pose proof (H 3 1 ltac:(lia) ltac:(lia))%nat. pose proof (H 3 2 ltac:(lia) ltac:(lia))%nat. pose proof (H 3 3 ltac:(lia) ltac:(lia))%nat.
  pose proof (H 4 1 ltac:(lia) ltac:(lia))%nat. clear H.
  vm_compute in E. injection E as <-. run. repeat step_div. reflexivity.
Qed.

Lemma ders_high U u p n s : (4 <= p)%nat -> mono (knot U) -> span_ok (knot U) s u -> (p <= s)%nat -> (s + p < length U)%nat ->
  ders_basis_funs s u p n U = Throw EInvalidArgument.
Proof.
  intros Hp M (A & B & C) Hs L. unfold ders_basis_funs. destruct (row_put (repeat v4zero DEG_STACK_SIZE) 0 0 1) as [ndu|e|] eqn:E; [|vm_compute in E; discriminate..].
  cbn [bind]. replace p with (4 + (p - 4))%nat at 1 by lia. rewrite for_up_app.
  rewrite (for_up_ext (ndu_outer s u U) (ndu_outer_f (fun j => knot U (s + 1 - j)) (fun j => knot U (s + j)) u)).
  - rewrite (ndu_four (fun j => knot U (s + 1 - j)) (fun j => knot U (s + j)) u); [reflexivity| |exact E].
    intros i j Hi Hj. assert (knot U (s + 1 - i) <= knot U s) by (apply M; lia). assert (knot U (S s) <= knot U (s + j)) by (apply M; lia). qc_lra.
  - intros j [[nd lf] rg] Hj. unfold ndu_outer, ndu_outer_f. unfold getZ.
    destruct (Z.ltb_spec (Z.of_nat s + 1 - Z.of_nat j) 0); [lia|].
    rewrite (get_ok U (Z.to_nat (Z.of_nat s + 1 - Z.of_nat j)) 0) by lia. cbn [bind].
    rewrite (get_ok U (s + j) 0) by lia. rewrite !knot_nth by lia. replace (Z.to_nat (Z.of_nat s + 1 - Z.of_nat j)) with (s + 1 - j)%nat by lia. reflexivity.
Qed.

Lemma derivative_high c n t : good_curve c n -> (4 <= nc_degree c)%nat -> in_curve c n t ->
  nc_derivative c t = Throw EInvalidArgument /\ forall d, nc_derivatives c t d = Throw EInvalidArgument.
Proof.
  intros (HP & V & H8) Hp D. destruct (sp_ok _ _ _ _ V D) as (E & Hs & I). pose proof V as (Hpn & HL & So & N). pose proof I as (Hsn & _).
  assert (forall d, curve_derivs_alg1 n (nc_degree c) (nc_knots c) (nc_cps c) t d (nc_periodic c) = Throw EInvalidArgument) as K.
  { intros d. unfold curve_derivs_alg1. rewrite E. cbn [bind]. rewrite ders_high; [reflexivity|assumption|apply sorted_mono; assumption|eapply valid_span_ok; eassumption|assumption|lia]. }
  split; [|intros d]; [unfold nc_derivative|unfold nc_derivatives]; rewrite HP, K; reflexivity.
Qed.

(** ** statements *)
Lemma derivative_top c n t : good_curve c n -> (1 <= nc_degree c <= 3)%nat -> unit_weights (nc_cps c) -> in_curve c n t ->
  exists d, nc_derivative c t = Ok d /\
    has_velocity (evaluate c) (fun t' => in_curve c n t' /\ t <= t') t d /\
    (t <= knot (nc_knots c) (nc_degree c) \/ knot (nc_knots c) (n + 1) <= t \/ (multiplicity (nc_knots c) t < nc_degree c)%nat ->
     has_velocity (evaluate c) (in_curve c n) t d).
Proof.
  intros G Hp W D. exists (point_k c n 1 t). split; [apply derivative_point; assumption|].
  destruct (velocity_k c n 0 t (evaluate c) G D) as [A B]; [intros; apply evaluate_phi; assumption|]. split; [exact A|].
  intros [H|[H|H]]; apply B; auto. right. right. lia.
Qed.

Lemma derivatives_top c n d : good_curve c n -> (nc_degree c <= 3)%nat -> unit_weights (nc_cps c) -> (d <= nc_degree c + 1)%nat ->
  forall t, in_curve c n t -> exists l, nc_derivatives c t d = Ok l /\ length l = d /\
    ((1 <= d)%nat -> evaluate c t = get l 0) /\
    forall k, (k + 1 < d)%nat -> exists v, get l (k + 1) = Ok v /\
      has_velocity (fun t' => l' <- nc_derivatives c t' d ;; get l' k) (fun t' => in_curve c n t' /\ t <= t') t v /\
      (t <= knot (nc_knots c) (nc_degree c) \/ knot (nc_knots c) (n + 1) <= t \/ (multiplicity (nc_knots c) t + k < nc_degree c)%nat ->
       has_velocity (fun t' => l' <- nc_derivatives c t' d ;; get l' k) (in_curve c n) t v).
Proof.
  intros G Hp W Hd t D. exists (map (fun k => point_k c n k t) (seq 0 d)). split; [apply derivatives_points; assumption|]. split; [rewrite map_length, seq_length; reflexivity|].
  split.
  - intros H. rewrite get_map_seq by lia. apply evaluate_phi; assumption.
  - intros k Hk. exists (point_k c n (k + 1) t). rewrite get_map_seq by lia. split; [reflexivity|]. rewrite Nat.add_1_r.
    destruct (velocity_k c n k t (fun t' => l' <- nc_derivatives c t' d ;; get l' k) G D) as [A B].
    { intros t' D'. rewrite (derivatives_points c n t' d G Hp Hd D'). cbn [bind]. apply (get_map_seq (fun k => point_k c n k t')). lia. }
    split; [exact A|]. intros [H|[H|H]]; apply B; auto. right. right. lia.
Qed.
