(** Rounding errors of basis functions, curve points and surface points. *)
From Coq Require Import List ZArith QArith Qcanon Bool Lia.
From Verif Require Import Base BaseFacts ModelVec ModelAabb ModelNurbs ModelSurface SpecAabb SpecNurbs SpecSurface ModelRound SpecRound.
From Verif Require Import LoopFacts ProofBspline ProofNurbs ProofSurface ProofRound.
Import ListNotations.
Open Scope Qc_scope.

(** ** the rounded run with no rounding is the exact one *)
Lemma exact_div a b : fdiv (fun _ => Some) a b = qdiv a b.
Proof. unfold fdiv. destruct (qdiv a b); reflexivity. Qed.
Lemma exact_basis i u p U N : fbasis_funs (fun _ => Some) i u p U N = basis_funs i u p U N.
Proof. reflexivity. Qed.
Lemma exact_evaluate c x : fevaluate (fun _ => Some) c x = evaluate c x.
Proof.
  unfold fevaluate, evaluate. destruct (length (nc_cps c)) as [|n]; [reflexivity|]. unfold fcurve_point, curve_point.
  destruct (find_span n _ x _) as [s|e|]; [|reflexivity..]. cbn [bind]. rewrite exact_basis.
  destruct (basis_funs s x _ _ zeros) as [N|e|]; [|reflexivity..]. cbn [bind].
  change (fcurve_step (fun _ => Some)) with curve_point_step.
  destruct (for_up _ _ _ _) as [[[[w a] b] d]|e|]; [|reflexivity..]. cbn [bind]. rewrite !exact_div. reflexivity.
Qed.
Lemma exact_surface s u v : fns_evaluate (fun _ => Some) s u v = ns_evaluate s u v.
Proof.
  unfold fns_evaluate, ns_evaluate, fsurface_point, surface_point.
  destruct (surf_span _ _ u _) as [us|e|]; [|reflexivity..]. cbn [bind].
  destruct (surf_span _ _ v _) as [vs|e|]; [|reflexivity..]. cbn [bind]. rewrite exact_basis.
  destruct (basis_funs us u _ _ zeros) as [Nu|e|]; [|reflexivity..]. cbn [bind]. rewrite exact_basis.
  destruct (basis_funs vs v _ _ zeros) as [Nv|e|]; [|reflexivity..]. cbn [bind].
  destruct (get2 _ _ _) as [q|e|]; [|reflexivity..]. cbn [bind].
  change (fsurf_inner (fun _ => Some)) with surf_inner.
  destruct (for_up _ _ _ (repeat _ _)) as [temp|e|]; [|reflexivity..]. cbn [bind].
  change (fun (l : nat) (s0 : vec4) => nv <- get Nv l ;; t <- get temp l ;; faxpy (fun _ => Some) s0 nv t)
    with (fun (l : nat) (s0 : vec4) => nv <- get Nv l ;; t <- get temp l ;; Ok (v4axpy s0 nv t)).
  destruct (for_up _ _ _ v4zero) as [S|e|]; [|reflexivity..]. cbn [bind]. rewrite !exact_div. reflexivity.
Qed.

(** split conjunctions only, without unfolding *)
Ltac conjs := repeat match goal with |- _ /\ _ => split end.

Section Top.
Variables (eps : Qc) (fl : nat -> Qc -> option Qc).
Hypothesis RF : rounds eps fl.
Notation t := (1 - eps).
Notation tp := (t_pos eps fl RF).
Notation tl := (t_le1 eps fl RF).

(** ** basis functions *)
Lemma basis_here n p U x s : valid_knots n p U -> in_domain n p U x -> (p <= 8)%nat -> (p <= s)%nat -> is_span (knot U) n s x ->
  follows (lists (fun r => close t (if Nat.leb r p then 6 * p else 0))) (basis_funs s x p U zeros) (fbasis_funs fl s x p U zeros).
Proof.
  intros V D Hp Hs S. pose proof V as (Hn & HL & HS & HN). pose proof (valid_span_ok _ _ _ _ _ V S) as (S1 & S2 & _).
  pose proof (sorted_mono U HS) as M. pose proof S as (Hsn & _).
  apply (basis_follows eps fl RF).
  - intros j y Hj E. rewrite (getZ_ok U _ (last U 0)) in E by lia. injection E as <-. fold (knot U (Z.to_nat (Z.of_nat s + 1 - Z.of_nat j))).
    eapply Qcle_trans; [|exact S1]. apply M. lia.
  - intros j y Hj E. rewrite (get_ok U _ (last U 0)) in E by lia. injection E as <-. fold (knot U (s + j)).
    eapply Qcle_trans; [exact S2|]. apply M. lia.
Qed.

Lemma rounded_basis n p U x s : valid_knots n p U -> in_domain n p U x -> (p <= 8)%nat -> find_span n p x U = Ok s ->
  match fbasis_funs fl s x p U zeros with
  | Ok N => forall r, (r <= p)%nat -> 0 <= nth r N 0 /\ same_up_to eps (6 * p) (basis_at U n p x (s - p + r)) (nth r N 0)
  | Throw e => e = ERuntime
  | UB => False
  end.
Proof.
  intros V D Hp E. destruct (find_span_spec n p U x V D) as (s' & E' & Hs & S). rewrite E in E'. injection E' as <-.
  pose proof (basis_here n p U x s V D Hp Hs S) as F. pose proof V as (Hn & HL & HS & HN). pose proof S as (Hsn & _).
  destruct (basis_funs_spec U x s p zeros) as (N & E2 & L2 & G2 & _); [apply sorted_mono; assumption|eapply valid_span_ok; eassumption|assumption|lia|lia|reflexivity|].
  rewrite E2 in F. unfold follows in F. destruct (fbasis_funs fl s x p U zeros) as [N'|e|]; [|exact F|exact F].
  destruct F as (L & F). intros r Hr. specialize (F r ltac:(lia)). cbv beta in F. destruct (Nat.leb_spec r p); [|lia].
  split; [eapply close_nonneg; [exact tp|exact F]|]. rewrite G2 in F by lia. rewrite (basis_at_bsp n p U x s) by assumption.
  destruct F as (_ & A & B). split; assumption.
Qed.

(** ** curves *)
Definition curve_rel (p : nat) (B : Qc) (i : nat) (a b : Qc * Qc * Qc * Qc) : Prop :=
  let '(w, x, y, z) := a in let '(w', x', y', z') := b in
  close t (6 * p + 1 + i) w w' /\ near t (6 * p + 2 + i) x (B * w) x' /\ near t (6 * p + 2 + i) y (B * w) y' /\
  near t (6 * p + 2 + i) z (B * w) z'.

Lemma near_acc {A A'} (S : A -> A' -> Prop) o k i b b' q B x w x' (X : res A) g :
  close t k b b' -> q <= B -> - q <= B -> near t (k + 1 + i) x (B * w) x' ->
  (forall z, near t (k + 1 + Datatypes.S i) (x + b * q) (B * (w + b)) z -> follows S X (g z)) ->
  follows S X (bind (rnd fl o (b' * q)) (fun m => bind (rnd fl 0 (x' + m)) g)).
Proof.
  intros C Q1 Q2 N K. eapply (follows_rnd_near eps fl RF); [apply (near_scale t tp tl k 0 _ _ _ _ _ C (near_refl t tp tl 0 q B Q1 Q2))|].
  intros m Hm. eapply (follows_rnd_near eps fl RF).
  { apply (near_add t (k + 1 + i)); [exact N|]. eapply (near_mono t tp tl); [|exact Hm]. lia. }
  intros z Hz. apply K. replace (k + 1 + Datatypes.S i)%nat with (Datatypes.S (k + 1 + i)) by lia. replace (B * (w + b)) with (B * w + b * B) by ring. exact Hz.
Qed.

Lemma curve_step_follows p s P N N' B i st st' : (i <= p)%nat ->
  lists (fun r => close t (if Nat.leb r p then 6 * p else 0)) N N' ->
  (forall q, In q P -> 0 < ww q /\ Qcabs (wx q) <= B /\ Qcabs (wy q) <= B /\ Qcabs (wz q) <= B) ->
  curve_rel p B i st st' -> follows (curve_rel p B (S i)) (curve_point_step p s P N i st) (fcurve_step fl p s P N' i st').
Proof.
  intros Hi HN HP. destruct st as [[[w x] y] z], st' as [[[w' x'] y'] z']. intros (Rw & Rx & Ry & Rz).
  unfold curve_point_step, fcurve_step. apply follows_bind_same. intros q Eq.
  assert (In q P) as IQ.
  { unfold getZ in Eq. destruct (_ <? 0)%Z; [discriminate|]. unfold get in Eq. destruct (nth_error P _) eqn:E; [|discriminate].
    injection Eq as <-. eapply nth_error_In, E. }
  destruct (HP q IQ) as (W & BX & BY & BZ).
  eapply follows_bind; [apply (follows_get _ _ _ i HN)|]. cbn beta. destruct (Nat.leb_spec i p); [|lia]. intros a a' Ha.
  eapply (follows_rnd_close eps fl RF).
  { apply (close_mul t tp (6 * p) 0 _ _ (ww q) (ww q) Ha). apply (close_refl t tp tl). apply lt_le, W. }
  rewrite Nat.add_0_r. intros b Hb. cbv zeta. replace (Datatypes.S (6 * p)) with (6 * p + 1)%nat in Hb by lia.
  eapply (follows_rnd_close eps fl RF).
  { apply (close_mul t tp (6 * p) 0 _ _ (ww q) (ww q) Ha). apply (close_refl t tp tl). apply lt_le, W. }
  rewrite Nat.add_0_r. intros b2 Hb2. replace (Datatypes.S (6 * p)) with (6 * p + 1)%nat in Hb2 by lia.
  eapply (follows_rnd_close eps fl RF).
  { apply (close_add t (6 * p + 1 + i)); [exact Rw|]. eapply (close_mono t tp tl); [|exact Hb2]. lia. }
  intros w2 Hw2.
  assert (forall c, Qcabs c <= B -> c <= B /\ - c <= B) as AB.
  { intros c Hc. pose proof (Qcle_Qcabs c). pose proof (Qcopp_Qcabs c). split; eapply Qcle_trans; eassumption. }
  destruct (AB _ BX) as (BX1 & BX2), (AB _ BY) as (BY1 & BY2), (AB _ BZ) as (BZ1 & BZ2).
  replace (6 * p + 2)%nat with (6 * p + 1 + 1)%nat in Rx, Ry, Rz by lia.
  eapply (near_acc _ _ (6 * p + 1) i); [exact Hb|exact BX1|exact BX2|exact Rx|]. intros x2 Hx2.
  eapply (near_acc _ _ (6 * p + 1) i); [exact Hb|exact BY1|exact BY2|exact Ry|]. intros y2 Hy2.
  eapply (near_acc _ _ (6 * p + 1) i); [exact Hb|exact BZ1|exact BZ2|exact Rz|]. intros z2 Hz2.
  unfold follows, curve_rel. replace (6 * p + 2)%nat with (6 * p + 1 + 1)%nat by lia.
  conjs; [|exact Hx2|exact Hy2|exact Hz2].
  replace (6 * p + 1 + Datatypes.S i)%nat with (Datatypes.S (6 * p + 1 + i)) by lia. exact Hw2.
Qed.

Lemma follows_div {A A'} (S : A -> A' -> Prop) k l x M x' w w' f g : 0 < w -> near t k x M x' -> close t l w w' ->
  (forall a, near t (Datatypes.S (k + l)) (x / w) (M / w) a -> follows S (f (x / w)) (g a)) ->
  follows S (bind (qdiv x w) f) (bind (fdiv fl x' w') g).
Proof.
  intros W N C K. pose proof (close_pos t tp _ _ _ C W) as W'.
  assert (forall q : Qc, 0 < q -> q <> 0) as NZ by (intros q H E; rewrite E in H; discriminate H).
  rewrite (qdiv_ok _ _ (NZ _ W)). unfold fdiv. rewrite (qdiv_ok _ _ (NZ _ W')). cbn [bind].
  eapply (follows_rnd_near eps fl RF); [apply (near_div t tp tl _ _ _ _ _ _ _ N C W)|exact K].
Qed.

Definition point_rel (k : nat) (B : Qc) (a b : vec3) : Prop :=
  near t k (vx a) B (vx b) /\ near t k (vy a) B (vy b) /\ near t k (vz a) B (vz b).
Lemma follows_point k l B x y z w x' y' z' w' : 0 < w -> close t l w w' ->
  near t k x (B * w) x' -> near t k y (B * w) y' -> near t k z (B * w) z' ->
  follows (point_rel (S (k + l)) B)
    (a <- qdiv x w ;; b <- qdiv y w ;; c <- qdiv z w ;; Ok (V3 a b c))
    (a <- fdiv fl x' w' ;; b <- fdiv fl y' w' ;; c <- fdiv fl z' w' ;; Ok (V3 a b c)).
Proof.
  intros W C X Y Z. assert (B * w / w = B) as E by (field; intros E; rewrite E in W; discriminate W).
  eapply follows_div; [exact W|exact X|exact C|]. rewrite E. intros a Ha.
  eapply follows_div; [exact W|exact Y|exact C|]. rewrite E. intros b Hb.
  eapply follows_div; [exact W|exact Z|exact C|]. rewrite E. intros c Hc. unfold follows, point_rel. cbn [vx vy vz].
  conjs; [exact Ha|exact Hb|exact Hc].
Qed.

Lemma point_differs k B a b : point_rel k B a b -> point_differs_at_most eps k B a b.
Proof. intros (X & Y & Z). unfold point_differs_at_most. conjs; eapply (near_differs t tp tl); try reflexivity; try eassumption; apply Qcle_refl. Qed.

Lemma rounded_curve n p U P B x : valid_knots n p U -> in_domain n p U x -> (p <= 8)%nat -> length P = S n ->
  (forall q, In q P -> 0 < ww q /\ Qcabs (wx q) <= B /\ Qcabs (wy q) <= B /\ Qcabs (wz q) <= B) ->
  follows (point_rel (14 * p + 6) B) (curve_point n p U P x) (fcurve_point fl n p U P x).
Proof.
  intros V D Hp HP HB. unfold curve_point, fcurve_point.
  destruct (find_span_spec n p U x V D) as (s & E & Hs & S). rewrite E. cbn [bind].
  pose proof (basis_here n p U x s V D Hp Hs S) as F. pose proof S as (Hsn & _).
  eapply follows_bind; [exact F|]. intros N N' HN.
  eapply follows_bind.
  { apply (follows_for (curve_rel p B) _ _ (p + 1) 0).
    - assert (0 <= B) as B0.
      { destruct P as [|q P]; [discriminate HP|]. destruct (HB q (or_introl eq_refl)) as (_ & H & _). eapply Qcle_trans; [apply Qcabs_nonneg|exact H]. }
      unfold curve_rel. replace (B * 0) with 0 by ring. conjs; first [apply (close_refl t tp tl)|apply (near_refl t tp tl)]; apply Qcle_refl.
    - intros i a b _ Hi. apply curve_step_follows; [lia|exact HN|exact HB]. }
  cbn [Nat.add]. intros [[[w a] b] c] [[[w' a'] b'] c'] (Rw & Ra & Rb & Rc).
  destruct (Qcle_lt_or_eq 0 w (proj1 Rw)) as [W|W].
  - eapply follows_mono; [|apply (follows_point (7 * p + 3) (7 * p + 2) B); [exact W|..]].
    + intros u v H. replace (14 * p + 6)%nat with (Datatypes.S (7 * p + 3 + (7 * p + 2))) by lia. exact H.
    + replace (7 * p + 2)%nat with (6 * p + 1 + (p + 1))%nat by lia. exact Rw.
    + replace (7 * p + 3)%nat with (6 * p + 2 + (p + 1))%nat by lia. exact Ra.
    + replace (7 * p + 3)%nat with (6 * p + 2 + (p + 1))%nat by lia. exact Rb.
    + replace (7 * p + 3)%nat with (6 * p + 2 + (p + 1))%nat by lia. exact Rc.
  - unfold qdiv at 1. rewrite <- W. destruct (Qceqb_spec 0 0) as [_|H]; [exact I|destruct (H eq_refl)].
Qed.

(** ** surfaces *)
Definition hom_rel (k : nat) (B : Qc) (a b : vec4) : Prop :=
  close t k (ww a) (ww b) /\ near t k (wx a) (B * ww a) (wx b) /\ near t k (wy a) (B * ww a) (wy b) /\ near t k (wz a) (B * ww a) (wz b).

Lemma follows_axpy k l i B s s' a a' q q' : close t k a a' -> hom_rel l B q q' -> hom_rel (k + l + 1 + i) B s s' ->
  follows (hom_rel (k + l + 1 + S i) B) (Ok (v4axpy s a q)) (faxpy fl s' a' q').
Proof.
  intros C (QW & QX & QY & QZ) (SW & SX & SY & SZ). unfold faxpy.
  assert (forall (A A' : Type) (T : A -> A' -> Prop) (X : res A) g x x' c c',
    near t l c (B * ww q) c' -> near t (k + l + 1 + i) x (B * ww s) x' ->
    (forall z, near t (k + l + 1 + S i) (x + a * c) (B * (ww s + a * ww q)) z -> follows T X (g z)) ->
    follows T X (bind (rnd fl 4 (a' * c')) (fun m => bind (rnd fl 0 (x' + m)) g))) as STEP.
  { intros A A' T X g x x' c c' NC NX K. eapply (follows_rnd_near eps fl RF); [apply (near_scale t tp tl k l _ _ _ _ _ C NC)|].
    intros m Hm. eapply (follows_rnd_near eps fl RF).
    { apply (near_add t (k + l + 1 + i)); [exact NX|]. eapply (near_mono t tp tl); [|exact Hm]. lia. }
    intros z Hz. apply K. replace (k + l + 1 + S i)%nat with (S (k + l + 1 + i)) by lia.
    replace (B * (ww s + a * ww q)) with (B * ww s + a * (B * ww q)) by ring. exact Hz. }
  eapply STEP; [exact QX|exact SX|]. intros x Hx. eapply STEP; [exact QY|exact SY|]. intros y Hy. eapply STEP; [exact QZ|exact SZ|]. intros z Hz.
  eapply (follows_rnd_close eps fl RF); [apply (close_mul t tp k l _ _ _ _ C QW)|]. intros m Hm.
  eapply (follows_rnd_close eps fl RF).
  { apply (close_add t (k + l + 1 + i)); [exact SW|]. eapply (close_mono t tp tl); [|exact Hm]. lia. }
  intros w Hw. unfold follows, hom_rel, v4axpy. cbn [ww wx wy wz].
  conjs; [|exact Hx|exact Hy|exact Hz]. replace (k + l + 1 + S i)%nat with (S (k + l + 1 + i)) by lia. exact Hw.
Qed.

(** lists of homogeneous points *)
Definition rows (K : nat -> nat) (B : Qc) (l l' : list vec4) : Prop :=
  length l = length l' /\ forall i, (i < length l)%nat -> hom_rel (K i) B (nth i l v4zero) (nth i l' v4zero).
Lemma rows_get K B l l' i : rows K B l l' -> follows (hom_rel (K i) B) (get l i) (get l' i).
Proof.
  intros (L & H). destruct (Nat.lt_ge_cases i (length l)) as [G|G].
  - rewrite (get_ok l i v4zero), (get_ok l' i v4zero) by lia. apply H, G.
  - unfold get. rewrite (proj2 (nth_error_None l i)) by lia. exact I.
Qed.
Lemma rows_set K K' B l l' i x x' : rows K B l l' -> (forall j, j <> i -> K' j = K j) -> hom_rel (K' i) B x x' ->
  follows (rows K' B) (set_nth l i x) (set_nth l' i x').
Proof.
  intros (L & H) E X. destruct (Nat.lt_ge_cases i (length l)) as [G|G].
  - destruct (set_nth_ok l i x) as (m & E1 & Lm & Gm); [exact G|]. destruct (set_nth_ok l' i x') as (m' & E' & Lm' & Gm'); [lia|].
    rewrite E1, E'. unfold follows. split; [lia|]. intros j Hj. rewrite Gm, Gm'. destruct (Nat.eqb_spec j i) as [->|N]; [exact X|]. rewrite E by exact N. apply H. lia.
  - enough (set_nth l i x = UB) as -> by exact I. clear - G. revert i G. induction l as [|y l IH]; intros [|i] G; cbn in *; try reflexivity; [lia|].
    rewrite IH by lia. reflexivity.
Qed.

Lemma hom_mono k l B a b : (k <= l)%nat -> hom_rel k B a b -> hom_rel l B a b.
Proof. intros H (A & C & D & E). unfold hom_rel. conjs; first [eapply (close_mono t tp tl); eassumption|eapply (near_mono t tp tl); eassumption]. Qed.

Lemma get2_in (P : list (list vec4)) i j q : get2 P i j = Ok q -> exists row, In row P /\ In q row.
Proof.
  unfold get2, getZ, get, of_option. destruct (i <? 0)%Z; [discriminate|]. destruct (nth_error P (Z.to_nat i)) as [row|] eqn:E; [|discriminate].
  cbn [bind]. destruct (j <? 0)%Z; [discriminate|]. destruct (nth_error row (Z.to_nat j)) as [q'|] eqn:E'; [|discriminate].
  intros H. injection H as ->. exists row. split; eapply nth_error_In; eassumption.
Qed.

(** the loop over k keeps row l within 6p + 1 + k of the exact one *)
Definition row_k (p l k j : nat) : nat := if Nat.ltb j l then (7 * p + 2)%nat else if Nat.eqb j l then (6 * p + 1 + k)%nat else 0%nat.
Lemma surf_inner_follows p q us vs Nu Nu' P B l k temp temp' : (k <= p)%nat ->
  lists (fun r => close t (if Nat.leb r p then 6 * p else 0)) Nu Nu' ->
  (forall row c, In row P -> In c row -> 0 < ww c /\ Qcabs (wx c) <= B * ww c /\ Qcabs (wy c) <= B * ww c /\ Qcabs (wz c) <= B * ww c) ->
  rows (row_k p l k) B temp temp' ->
  follows (rows (row_k p l (S k)) B) (surf_inner p q us vs Nu P l k temp) (fsurf_inner fl p q us vs Nu' P l k temp').
Proof.
  intros Hk HN HP HT. unfold surf_inner, fsurf_inner.
  eapply follows_bind; [apply (follows_get _ _ _ k HN)|]. cbn beta. destruct (Nat.leb_spec k p) as [_|]; [|lia]. intros a a' Ha.
  eapply follows_bind; [apply (rows_get _ _ _ _ l HT)|]. intros s s' Hs.
  apply follows_bind_same. intros c Ec. destruct (get2_in _ _ _ _ Ec) as (row & I1 & I2). destruct (HP row c I1 I2) as (W & X & Y & Z).
  assert (forall x, Qcabs x <= B * ww c -> near t 0 x (B * ww c) x) as AB.
  { intros x H. apply (near_refl t tp tl); (eapply Qcle_trans; [|exact H]); [apply Qcle_Qcabs|apply Qcopp_Qcabs]. }
  change (set_nth temp l (v4axpy s a c)) with (bind (Ok (v4axpy s a c)) (set_nth temp l)).
  unfold row_k in Hs. rewrite Nat.ltb_irrefl, Nat.eqb_refl in Hs.
  eapply follows_bind.
  { apply (follows_axpy (6 * p) 0 k B); [exact Ha| |].
    - unfold hom_rel. conjs; [apply (close_refl t tp tl), lt_le, W|apply AB; assumption..].
    - rewrite Nat.add_0_r. exact Hs. }
  rewrite Nat.add_0_r. intros s2 s2' Hs2. eapply (rows_set _ _ _ _ _ l); [exact HT| |].
  - intros j Hj. unfold row_k. destruct (Nat.eqb_spec j l); [contradiction|reflexivity].
  - unfold row_k. rewrite Nat.ltb_irrefl, Nat.eqb_refl. exact Hs2.
Qed.

Lemma zero_rel k B : hom_rel k B v4zero v4zero.
Proof.
  unfold hom_rel, v4zero. cbn [ww wx wy wz]. replace (B * 0) with 0 by ring.
  conjs; first [apply (close_refl t tp tl)|apply (near_refl t tp tl)]; apply Qcle_refl.
Qed.
Lemma zero_rows K B n : rows K B (repeat v4zero n) (repeat v4zero n).
Proof.
  split; [reflexivity|]. intros i _. replace (nth i (repeat v4zero n) v4zero) with v4zero; [apply zero_rel|].
  revert i. induction n; intros [|i]; cbn; auto.
Qed.
Lemma rows_mono K K' B l l' : (forall i, (K i <= K' i)%nat) -> rows K B l l' -> rows K' B l l'.
Proof. intros H (L & R). split; [exact L|]. intros i Hi. eapply hom_mono; [apply H|apply R, Hi]. Qed.

Lemma rounded_surface s n m B u v : good_surf s n m -> in_surf s n m u v ->
  (forall row c, In row (ns_cps s) -> In c row -> 0 < ww c /\ Qcabs (wx c) <= B * ww c /\ Qcabs (wy c) <= B * ww c /\ Qcabs (wz c) <= B * ww c) ->
  follows (point_rel (14 * (ns_du s + ns_dv s) + 9) B) (ns_evaluate s u v) (fns_evaluate fl s u v).
Proof.
  intros G D HB. pose proof G as (G1 & G2 & G3 & G4 & VU & VV & H8 & H8'). pose proof D as (DU & DV).
  unfold ns_evaluate, fns_evaluate, surface_point, fsurface_point. rewrite G3, G4. cbn [last_index surf_span].
  destruct (find_span_spec _ _ _ _ VU DU) as (us & E1 & HU & IU). destruct (find_span_spec _ _ _ _ VV DV) as (vs & E2 & HV & IV).
  rewrite E1. cbn [bind]. rewrite E2. cbn [bind].
  pose proof (basis_here _ _ _ _ _ VU DU H8 HU IU) as FU. pose proof (basis_here _ _ _ _ _ VV DV H8' HV IV) as FV.
  set (p := ns_du s) in *. set (q := ns_dv s) in *. set (P := ns_cps s) in *.
  eapply follows_bind; [exact FU|]. intros Nu Nu' HNu. eapply follows_bind; [exact FV|]. intros Nv Nv' HNv.
  apply follows_bind_same. intros _ _.
  eapply follows_bind.
  { apply (follows_for (fun l => rows (row_k p l 0) B) _ _ (q + 1) 0); [apply zero_rows|].
    intros l a b _ Hl R.
    eapply follows_mono; [|apply (follows_for (fun k => rows (row_k p l k) B) _ _ (p + 1) 0); [exact R|]].
    - cbn [Nat.add]. intros a2 b2. apply rows_mono. intros i. unfold row_k.
      destruct (Nat.ltb_spec i l), (Nat.ltb_spec i (S l)), (Nat.eqb_spec i l), (Nat.eqb_spec i (S l)); lia.
    - intros k a2 b2 _ Hk. apply surf_inner_follows; [lia|exact HNu|exact HB]. }
  cbn [Nat.add]. intros temp temp' HT.
  eapply follows_bind.
  { apply (follows_for (fun i => hom_rel (6 * q + (7 * p + 2) + 1 + i) B) _ _ (q + 1) 0); [apply zero_rel|].
    intros i a b _ Hi R.
    eapply follows_bind; [apply (follows_get _ _ _ i HNv)|]. cbn beta. destruct (Nat.leb_spec i q) as [_|]; [|lia]. intros nv nv' Hnv.
    eapply follows_bind; [apply (rows_get _ _ _ _ i HT)|]. intros c c' Hc.
    unfold row_k in Hc. destruct (Nat.ltb_spec i (q + 1)); [|lia].
    apply follows_axpy; assumption. }
  cbn [Nat.add]. intros w w' (Rw & Rx & Ry & Rz). set (K := (6 * q + (7 * p + 2) + 1 + (q + 1))%nat) in *.
  destruct (Qcle_lt_or_eq 0 (ww w) (proj1 Rw)) as [W|W].
  - eapply follows_mono; [|apply (follows_point K K B); [exact W|exact Rw|exact Rx|exact Ry|exact Rz]].
    intros a b R. replace (14 * (p + q) + 9)%nat with (Datatypes.S (K + K)) by (unfold K; lia). exact R.
  - unfold qdiv at 1. rewrite <- W. destruct (Qceqb_spec 0 0) as [_|H]; [exact I|destruct (H eq_refl)].
Qed.
End Top.
