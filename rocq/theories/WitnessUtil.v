(** Cases for the statements about segments, normals and boxes of directions. *)
From Coq Require Import List ZArith Reals Bool Lra Lia Permutation Sorted.
From Verif Require Import Base BaseFacts LoopFacts ModelPlane ModelVecOps ModelUtil SpecPlane SpecVecOps SpecUtil ProofPlane ProofVecOps ProofUtil ProofNormals ProofUnique ProofSphereBox.
Import ListNotations.
Local Open Scope R_scope.

Lemma normals_append_bad : polygon_normals true tri345 [RV2 0 2] = Ok [RV2 0 1; RV2 0 (-1); RV2 (3 / 5) (4 / 5); RV2 (-3) 0] /\
  (exists n, nth_error [RV2 0 1; RV2 0 (-1); RV2 (3 / 5) (4 / 5); RV2 (-3) 0] 3 = Some n /\ r2len n <> 1) /\
  nth_error [RV2 0 1; RV2 0 (-1); RV2 (3 / 5) (4 / 5); RV2 (-3) 0] 0 <> nth_error [RV2 0 2] 0.
Proof.
  split; [exact normals_append_wrong|]. split.
  - exists (RV2 (-3) 0). split; [reflexivity|]. unfold r2len, r2dot. cbn [r2x r2y]. intros E.
    assert (sqrt (3 * 3) = 3) as S3 by (apply sqrt_square; lra). enough (sqrt (3 * 3) = 1) by lra. rewrite <- E. f_equal. ring.
  - cbn [nth_error]. intros E. injection E as E. lra.
Qed.
Lemma tiny_all : no_zero_edge tiny_tri /\ unique_normals false tiny_tri [] = Ok [RV2 0 (- tiny)] /\ edge tiny_tri 1 (RV2 tiny 0) (RV2 0 tiny) /\
  forall n, In n [RV2 0 (- tiny)] -> ~ perpendicular n (RV2 tiny 0) (RV2 0 tiny).
Proof.
  destruct tiny_missing as (A & B & C & D). repeat (split; [assumption|]). intros n [<-|[]]. exact D.
Qed.
Lemma arcs_share : In (RV (3 / 5) (4 / 5) 0) arc1 /\ In (RV (3 / 5) (4 / 5) 0) arc2 /\ forall fl sort, float_rounding fl -> sorts_reals sort -> spherical_aabb_test fl sort arc1 arc2 = Ok true.
Proof. split; [right; right; left; reflexivity|]. split; [left; reflexivity|exact arcs_apart]. Qed.

(** a sort *)
Fixpoint insert_real (x : R) (l : list R) : list R :=
  match l with [] => [x] | y :: t => if Rle_dec x y then x :: l else y :: insert_real x t end.
Definition insertion (l : list R) : list R := fold_right insert_real [] l.
Lemma insert_real_perm x l : Permutation (insert_real x l) (x :: l).
Proof. induction l as [|y t IH]; [apply Permutation_refl|]. cbn [insert_real]. destruct (Rle_dec x y); [apply Permutation_refl|]. rewrite IH. apply perm_swap. Qed.
Lemma insert_real_sorted x l : Sorted Rle l -> Sorted Rle (insert_real x l).
Proof.
  induction 1 as [|y t S IH H]; [repeat constructor|]. cbn [insert_real]. destruct (Rle_dec x y) as [L|L].
  - constructor; [constructor; assumption|constructor; exact L].
  - constructor; [exact IH|]. destruct t as [|z t]; cbn [insert_real]; [constructor; lra|]. inversion H; subst. destruct (Rle_dec x z); constructor; lra.
Qed.
Lemma insertion_sorts : sorts_reals insertion.
Proof.
  intros l. split.
  - induction l as [|x l IH]; [apply Permutation_refl|]. cbn [insertion fold_right]. rewrite insert_real_perm. apply perm_skip. exact IH.
  - induction l as [|x l IH]; [constructor|]. cbn [insertion fold_right]. apply insert_real_sorted. exact IH.
Qed.
Lemma single_case fl : spherical_aabb_test fl insertion [RV 1 1 1] [RV 1 2 3] = Ok true.
Proof.
  unfold spherical_aabb_test. destruct (single_box fl insertion (RV 1 1 1) insertion_sorts) as (k & K & ->). destruct (single_box fl insertion (RV 1 2 3) insertion_sorts) as (j & J & ->).
  cbn [bind]. f_equal. unfold sbox_separable. cbn [sb_start sb_end rx ry rz rvscale]. apply orb_true_iff. left. apply orb_true_iff. left.
  unfold axis_apart. apply orb_true_iff. left. rewrite !(Rmult_comm _ k), !(Rmult_comm _ j), !atan2_scale by assumption. rewrite !atan2_pos by lra.
  assert (atan (1 / 1) < atan (3 / 2)) as L by (apply atan_lt; lra). apply andb_true_iff. split; apply rltb_iff; exact L.
Qed.
