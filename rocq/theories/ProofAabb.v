From Coq Require Import List ZArith QArith Qcanon Lia Bool Lqa.
From Verif Require Import Base BaseFacts ModelVec ModelAabb SpecAabb.
Import ListNotations.
Open Scope Qc_scope.

Lemma Qcmin_le_l a b : Qcmin a b <= a.
Proof. unfold Qcmin. destruct (_ <? _) eqn:E; qcb; [apply Qclt_le_weak; assumption | apply Qcle_refl]. Qed.
Lemma Qcmin_le_r a b : Qcmin a b <= b.
Proof. unfold Qcmin. destruct (_ <? _) eqn:E; qcb; [apply Qcle_refl | assumption]. Qed.
Lemma Qcmin_glb a b c : c <= a -> c <= b -> c <= Qcmin a b.
Proof. unfold Qcmin. destruct (_ <? _); auto. Qed.
Lemma Qcmin_cases a b : Qcmin a b = a \/ Qcmin a b = b.
Proof. unfold Qcmin. destruct (_ <? _); auto. Qed.
Lemma Qcmax_ge_l a b : a <= Qcmax a b.
Proof. unfold Qcmax. destruct (_ <? _) eqn:E; qcb; [apply Qclt_le_weak; assumption | apply Qcle_refl]. Qed.
Lemma Qcmax_ge_r a b : b <= Qcmax a b.
Proof. unfold Qcmax. destruct (_ <? _) eqn:E; qcb; [apply Qcle_refl | assumption]. Qed.
Lemma Qcmax_lub a b c : a <= c -> b <= c -> Qcmax a b <= c.
Proof. unfold Qcmax. destruct (_ <? _); auto. Qed.
Lemma Qcmax_cases a b : Qcmax a b = a \/ Qcmax a b = b.
Proof. unfold Qcmax. destruct (_ <? _); auto. Qed.

Lemma Qcmin_le_iff a b c : c <= Qcmin a b <-> c <= a /\ c <= b.
Proof.
  split; [|intros []; apply Qcmin_glb; assumption].
  intros H. split; (eapply Qcle_trans; [exact H|]); [apply Qcmin_le_l | apply Qcmin_le_r].
Qed.
Lemma Qcmax_le_iff a b c : Qcmax a b <= c <-> a <= c /\ b <= c.
Proof.
  split; [|intros []; apply Qcmax_lub; assumption].
  intros H. split; (eapply Qcle_trans; [|exact H]); [apply Qcmax_ge_l | apply Qcmax_ge_r].
Qed.

(** ** Coordinatewise views of the operations *)

Lemma coord_all q ax : coord (v3all q) ax = q.
Proof. destruct ax; reflexivity. Qed.
Lemma merge_min a b ax : coord (bmin (aabb_merge a b)) ax = Qcmin (coord (bmin a) ax) (coord (bmin b) ax).
Proof. destruct ax; reflexivity. Qed.
Lemma merge_max a b ax : coord (bmax (aabb_merge a b)) ax = Qcmax (coord (bmax a) ax) (coord (bmax b) ax).
Proof. destruct ax; reflexivity. Qed.
Lemma expand_min b p ax : coord (bmin (aabb_expand b p)) ax = Qcmin (coord (bmin b) ax) (coord p ax).
Proof. destruct ax; reflexivity. Qed.
Lemma expand_max b p ax : coord (bmax (aabb_expand b p)) ax = Qcmax (coord (bmax b) ax) (coord p ax).
Proof. destruct ax; reflexivity. Qed.

Lemma v3_ext p q : (forall ax, coord p ax = coord q ax) -> p = q.
Proof.
  intros H. destruct p, q. f_equal; [apply (H AX) | apply (H AY) | apply (H AZ)].
Qed.
Lemma box_ext a b : (forall ax, coord (bmin a) ax = coord (bmin b) ax) ->
  (forall ax, coord (bmax a) ax = coord (bmax b) ax) -> a = b.
Proof. intros H1 H2. destruct a, b. f_equal; apply v3_ext; assumption. Qed.

Lemma intersects_iff a b : aabb_intersects a b = true <->
  forall ax, coord (bmin a) ax <= coord (bmax b) ax /\ coord (bmin b) ax <= coord (bmax a) ax.
Proof.
  unfold aabb_intersects. rewrite !andb_true_iff, !Qcleb_iff. split.
  - intros (((((A & B) & C) & D) & E) & F) [| |]; cbn; auto.
  - intros H. pose proof (H AX); pose proof (H AY); pose proof (H AZ). cbn in *. tauto.
Qed.

Lemma intersects_sym a b : aabb_intersects a b = aabb_intersects b a.
Proof.
  apply eq_true_iff_eq. rewrite !intersects_iff. split; intros H ax; specialize (H ax); tauto.
Qed.

(** Order-theoretic inclusion, meaningful for inverted boxes as well. *)
Definition encl (a b : aabb) : Prop :=
  forall ax, coord (bmin b) ax <= coord (bmin a) ax /\ coord (bmax a) ax <= coord (bmax b) ax.

Lemma encl_refl a : encl a a.
Proof. intros ax; split; apply Qcle_refl. Qed.
Lemma encl_trans a b c : encl a b -> encl b c -> encl a c.
Proof. intros H1 H2 ax. destruct (H1 ax), (H2 ax). split; eapply Qcle_trans; eassumption. Qed.
Lemma encl_merge_l a b : encl a (aabb_merge a b).
Proof. intros ax. rewrite merge_min, merge_max. split; [apply Qcmin_le_l | apply Qcmax_ge_l]. Qed.
Lemma encl_merge_r a b : encl b (aabb_merge a b).
Proof. intros ax. rewrite merge_min, merge_max. split; [apply Qcmin_le_r | apply Qcmax_ge_r]. Qed.
Lemma encl_merge_lub a b c : encl a c -> encl b c -> encl (aabb_merge a b) c.
Proof.
  intros H1 H2 ax. rewrite merge_min, merge_max. destruct (H1 ax), (H2 ax).
  split; [apply Qcmin_glb | apply Qcmax_lub]; assumption.
Qed.
Lemma encl_sub a b : encl a b -> subbox a b.
Proof. intros H p Hp ax. destruct (H ax), (Hp ax). split; eapply Qcle_trans; eassumption. Qed.
Lemma encl_intersects a a' b b' : encl a a' -> encl b b' ->
  aabb_intersects a b = true -> aabb_intersects a' b' = true.
Proof.
  rewrite !intersects_iff. intros H1 H2 H ax. destruct (H1 ax), (H2 ax), (H ax).
  split; [eapply Qcle_trans; [eassumption|eapply Qcle_trans; eassumption]..].
Qed.

Lemma proper_inside_min b : proper b -> inside b (bmin b).
Proof. intros H ax. split; [apply Qcle_refl | apply H]. Qed.
Lemma proper_inside_max b : proper b -> inside b (bmax b).
Proof. intros H ax. split; [apply H | apply Qcle_refl]. Qed.
Lemma sub_encl a b : proper a -> subbox a b -> encl a b.
Proof.
  intros HP H ax. split.
  - apply (H _ (proper_inside_min a HP) ax).
  - apply (H _ (proper_inside_max a HP) ax).
Qed.

(** ** C23 *)

Lemma fold_expand_spec pts : forall b,
  (forall ax, let r := fold_left aabb_expand pts b in
     coord (bmin r) ax <= coord (bmin b) ax /\ coord (bmax b) ax <= coord (bmax r) ax /\
     (forall p, In p pts -> coord (bmin r) ax <= coord p ax /\ coord p ax <= coord (bmax r) ax) /\
     (forall lo, lo <= coord (bmin b) ax -> (forall p, In p pts -> lo <= coord p ax) -> lo <= coord (bmin r) ax) /\
     (forall hi, coord (bmax b) ax <= hi -> (forall p, In p pts -> coord p ax <= hi) -> coord (bmax r) ax <= hi)).
Proof.
  induction pts as [|q pts IH]; intros b ax; cbn [fold_left In]; cbv zeta.
  - repeat split; try apply Qcle_refl; try tauto; auto.
  - destruct (IH (aabb_expand b q) ax) as (A & B & C & D & E). cbv zeta in A, B, C, D, E.
    rewrite expand_min in A. rewrite expand_max in B. rewrite expand_min in D. rewrite expand_max in E.
    apply Qcmin_le_iff in A.
    pose proof (Qcmin_le_l (coord (bmin b) ax) (coord q ax)). pose proof (Qcmin_le_r (coord (bmin b) ax) (coord q ax)).
    pose proof (Qcmax_ge_l (coord (bmax b) ax) (coord q ax)). pose proof (Qcmax_ge_r (coord (bmax b) ax) (coord q ax)).
    split; [|split; [|split; [|split]]].
    + destruct A. assumption.
    + eapply Qcle_trans; eassumption.
    + intros p [<-|Hp]; [|apply C; assumption]. destruct A. split; [assumption|]. eapply Qcle_trans; eassumption.
    + intros lo H3 H4. apply D; [apply Qcmin_glb; [assumption | apply H4; left; reflexivity]|].
      intros p Hp. apply H4. right. assumption.
    + intros hi H3 H4. apply E; [apply Qcmax_lub; [assumption | apply H4; left; reflexivity]|].
      intros p Hp. apply H4. right. assumption.
Qed.

Lemma of_points_tight pts : pts <> [] ->
  exists b, aabb_of_points pts = Ok b /\ proper b /\ (forall p, In p pts -> inside b p) /\
  forall b', (forall p, In p pts -> inside b' p) -> subbox b b'.
Proof.
  destruct pts as [|p0 pts]; [congruence|]. intros _. eexists. split; [reflexivity|].
  pose proof (fold_expand_spec pts (Box p0 p0)) as H. set (r := fold_left aabb_expand pts (Box p0 p0)) in *.
  cbn [bmin bmax] in H. split; [|split].
  - intros ax. destruct (H ax) as (A & B & _). eapply Qcle_trans; eassumption.
  - intros p Hp ax. destruct (H ax) as (A & B & C & _). destruct Hp as [<-|Hp]; auto.
  - intros b' Hb. apply encl_sub. intros ax. destruct (H ax) as (_ & _ & _ & D & E). split.
    + apply D; [apply (Hb p0); left; reflexivity|]. intros p Hp. apply (Hb p). right. assumption.
    + apply E; [apply (Hb p0); left; reflexivity|]. intros p Hp. apply (Hb p). right. assumption.
Qed.

(** ** C24 *)

Lemma intersects_common a b : proper a -> proper b ->
  (aabb_intersects a b = true <-> exists p, inside a p /\ inside b p).
Proof.
  intros Ha Hb. rewrite intersects_iff. split.
  - intros H. exists (V3 (Qcmax (vx (bmin a)) (vx (bmin b))) (Qcmax (vy (bmin a)) (vy (bmin b))) (Qcmax (vz (bmin a)) (vz (bmin b)))).
    assert (X : forall ax, coord (V3 (Qcmax (vx (bmin a)) (vx (bmin b))) (Qcmax (vy (bmin a)) (vy (bmin b))) (Qcmax (vz (bmin a)) (vz (bmin b)))) ax
       = Qcmax (coord (bmin a) ax) (coord (bmin b) ax)) by (intros [| |]; reflexivity).
    split; intros ax; rewrite X; destruct (H ax); pose proof (Ha ax); pose proof (Hb ax); split;
      try apply Qcmax_ge_l; try apply Qcmax_ge_r; apply Qcmax_lub; assumption.
  - intros (p & H1 & H2) ax. destruct (H1 ax), (H2 ax). split; eapply Qcle_trans; eassumption.
Qed.

(** ** C25 *)

Lemma intersection_min a b c ax : aabb_intersection a b = Some c ->
  coord (bmin c) ax = Qcmax (coord (bmin a) ax) (coord (bmin b) ax).
Proof. unfold aabb_intersection. destruct (aabb_intersects a b); [|discriminate]. intros [= <-]. destruct ax; reflexivity. Qed.
Lemma intersection_max a b c ax : aabb_intersection a b = Some c ->
  coord (bmax c) ax = Qcmin (coord (bmax a) ax) (coord (bmax b) ax).
Proof. unfold aabb_intersection. destruct (aabb_intersects a b); [|discriminate]. intros [= <-]. destruct ax; reflexivity. Qed.
Lemma intersection_some a b : aabb_intersects a b = true <-> exists c, aabb_intersection a b = Some c.
Proof.
  unfold aabb_intersection. destruct (aabb_intersects a b); split; try congruence; [eauto|].
  intros [c H]. discriminate.
Qed.

Lemma intersection_points a b c : aabb_intersection a b = Some c ->
  forall p, inside c p <-> inside a p /\ inside b p.
Proof.
  intros E p. unfold inside. split.
  - intros H. split; intros ax; specialize (H ax); rewrite (intersection_min _ _ _ _ E), (intersection_max _ _ _ _ E), Qcmax_le_iff, Qcmin_le_iff in H; tauto.
  - intros [H1 H2] ax. rewrite (intersection_min _ _ _ _ E), (intersection_max _ _ _ _ E), Qcmax_le_iff, Qcmin_le_iff.
    specialize (H1 ax). specialize (H2 ax). tauto.
Qed.

Lemma meet_join :
  (forall a b c, aabb_intersection a b = Some c -> forall p, inside c p <-> inside a p /\ inside b p) /\
  (forall a b, proper a -> proper b -> aabb_intersection a b = None -> forall p, ~ (inside a p /\ inside b p)) /\
  (forall a b, subbox a (aabb_merge a b) /\ subbox b (aabb_merge a b)) /\
  (forall a b c, proper a -> proper b -> subbox a c -> subbox b c -> subbox (aabb_merge a b) c) /\
  (forall b p, subbox b (aabb_expand b p) /\ (proper b -> inside (aabb_expand b p) p)) /\
  (forall b p c, proper b -> subbox b c -> inside c p -> subbox (aabb_expand b p) c).
Proof.
  split; [exact intersection_points|]. split; [|split; [|split; [|split]]].
  - intros a b Ha Hb E p Hp. assert (X : aabb_intersects a b = true) by (apply intersects_common; eauto).
    apply intersection_some in X. destruct X. congruence.
  - intros a b. split; apply encl_sub; [apply encl_merge_l | apply encl_merge_r].
  - intros a b c Ha Hb H1 H2. apply encl_sub, encl_merge_lub; apply sub_encl; assumption.
  - intros b p. split.
    + apply encl_sub. intros ax. rewrite expand_min, expand_max. split; [apply Qcmin_le_l | apply Qcmax_ge_l].
    + intros _ ax. rewrite expand_min, expand_max. split; [apply Qcmin_le_r | apply Qcmax_ge_r].
  - intros b p c Hb H1 H2. apply encl_sub. intros ax. rewrite expand_min, expand_max.
    destruct (sub_encl _ _ Hb H1 ax), (H2 ax). split; [apply Qcmin_glb | apply Qcmax_lub]; assumption.
Qed.

(** ** C26 *)

Lemma DBL_MAX_pos : 0 < DBL_MAX.
Proof. reflexivity. Qed.

Lemma Qcmin_absorb a b : b <= a -> Qcmin a b = b.
Proof. intros H. apply Qcle_antisym; [apply Qcmin_le_r | apply Qcmin_glb; [assumption | apply Qcle_refl]]. Qed.
Lemma Qcmax_absorb a b : a <= b -> Qcmax a b = b.
Proof. intros H. apply Qcle_antisym; [apply Qcmax_lub; [assumption | apply Qcle_refl] | apply Qcmax_ge_r]. Qed.
Lemma Qcmin_comm a b : Qcmin a b = Qcmin b a.
Proof. apply Qcle_antisym; apply Qcmin_glb; (apply Qcmin_le_l || apply Qcmin_le_r). Qed.
Lemma Qcmax_comm a b : Qcmax a b = Qcmax b a.
Proof. apply Qcle_antisym; apply Qcmax_lub; (apply Qcmax_ge_l || apply Qcmax_ge_r). Qed.

Lemma merge_default b : finite_box b -> aabb_merge aabb_default b = b.
Proof.
  intros [H1 H2]. apply box_ext; intros ax; cbn [aabb_default bmin bmax].
  - rewrite merge_min. cbn [aabb_default bmin bmax]. rewrite coord_all. apply Qcmin_absorb, H1.
  - rewrite merge_max. cbn [aabb_default bmin bmax]. rewrite coord_all. apply Qcmax_absorb, H2.
Qed.
Lemma merge_comm a b : aabb_merge a b = aabb_merge b a.
Proof. apply box_ext; intros ax; rewrite ?merge_min, ?merge_max; [apply Qcmin_comm | apply Qcmax_comm]. Qed.

Lemma default_neutral :
  (forall b, finite_box b -> aabb_merge aabb_default b = b /\ aabb_merge b aabb_default = b) /\
  (forall p, finite_point p -> aabb_expand aabb_default p = Box p p) /\
  (forall p, ~ inside aabb_default p).
Proof.
  split; [|split].
  - intros b Hb. rewrite (merge_comm b). split; apply merge_default; assumption.
  - intros p Hp. apply (merge_default (Box p p)). split; exact Hp.
  - intros p Hp. specialize (Hp AX). cbn in Hp. pose proof DBL_MAX_pos. unfold DBL_LOWEST in Hp.
    destruct Hp as [H1 H2]. revert H H1 H2. generalize DBL_MAX. intros. qc_lra.
Qed.

Lemma infinity_never b : aabb_infinity b = false.
Proof.
  unfold aabb_infinity. apply andb_false_iff. left.
  destruct (b2q (vx (bmax b) =? vy (bmax b)) =? vz (bmax b)); reflexivity.
Qed.

Lemma infinity_refuted : exists b, b = aabb_default /\ aabb_infinity b = false.
Proof. exists aabb_default. split; [reflexivity | apply infinity_never]. Qed.

(** ** Volume *)

Lemma mul_mono a b c d : 0 <= a -> a <= b -> 0 <= c -> c <= d -> a * c <= b * d.
Proof. intros. qc_nra. Qed.
Lemma mul_nonneg a b : 0 <= a -> 0 <= b -> 0 <= a * b.
Proof. intros. qc_nra. Qed.

Lemma encl_volume a b : proper a -> encl a b -> 0 <= aabb_volume a /\ aabb_volume a <= aabb_volume b.
Proof.
  intros HP HE. unfold aabb_volume.
  pose proof (HP AX); pose proof (HP AY); pose proof (HP AZ).
  destruct (HE AX), (HE AY), (HE AZ). cbn in *.
  assert (0 <= vx (bmax a) - vx (bmin a) /\ vx (bmax a) - vx (bmin a) <= vx (bmax b) - vx (bmin b)) as [] by (split; qc_lra).
  assert (0 <= vy (bmax a) - vy (bmin a) /\ vy (bmax a) - vy (bmin a) <= vy (bmax b) - vy (bmin b)) as [] by (split; qc_lra).
  assert (0 <= vz (bmax a) - vz (bmin a) /\ vz (bmax a) - vz (bmin a) <= vz (bmax b) - vz (bmin b)) as [] by (split; qc_lra).
  split.
  - apply mul_nonneg; [apply mul_nonneg|]; assumption.
  - apply mul_mono; try assumption; [apply mul_nonneg; assumption|]. apply mul_mono; assumption.
Qed.

Lemma volume_monotone a b : proper a -> subbox a b -> 0 <= aabb_volume a /\ aabb_volume a <= aabb_volume b.
Proof. intros. apply encl_volume; [assumption|]. apply sub_encl; assumption. Qed.
