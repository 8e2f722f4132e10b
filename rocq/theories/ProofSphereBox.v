(** SphericalAABB. *)
From Coq Require Import List ZArith Reals Bool Lra Lia Permutation Sorted.
From Verif Require Import Base BaseFacts LoopFacts ModelPlane ModelNewton ModelVecOps ModelUtil SpecPlane SpecVecOps SpecUtil ProofPlane ProofVecOps ProofUtil.
Import ListNotations.
Local Open Scope R_scope.

(** sorted lists with the same elements are equal *)
Lemma sorted_unique : forall l l', Permutation l l' -> Sorted Rle l -> Sorted Rle l' -> l = l'.
Proof.
  assert (forall l l', Permutation l l' -> StronglySorted Rle l -> StronglySorted Rle l' -> l = l') as H.
  { induction l as [|a l IH]; intros l' P A B.
    - apply Permutation_nil in P. subst. reflexivity.
    - destruct l' as [|b l']; [apply Permutation_sym, Permutation_nil in P; discriminate P|].
      inversion A as [|? ? Al Ha]; subst. inversion B as [|? ? Bl Hb]; subst. rewrite Forall_forall in Ha, Hb.
      assert (a = b) as ->.
      { assert (In a (b :: l')) as Ia by (eapply Permutation_in; [exact P|left; reflexivity]).
        assert (In b (a :: l)) as Ib by (eapply Permutation_in; [apply Permutation_sym; exact P|left; reflexivity]).
        destruct Ia as [->|Ia]; [reflexivity|]. destruct Ib as [->|Ib]; [reflexivity|]. pose proof (Ha b Ib). pose proof (Hb a Ia). lra. }
      f_equal. apply IH; [eapply Permutation_cons_inv; exact P|assumption..]. }
  intros l l' P A B. apply H; [exact P|apply Sorted_StronglySorted; [intros x y z; apply Rle_trans|assumption]..].
Qed.
Lemma sort_sorted sort l : sorts_reals sort -> Sorted Rle l -> sort l = l.
Proof. intros S1 Sl. destruct (S1 l) as [P So]. apply sorted_unique; assumption. Qed.
Lemma sort_length sort l : sorts_reals sort -> length (sort l) = length l.
Proof. intros S1. apply Permutation_length, S1. Qed.

Lemma adjacent_length l : length (adjacent_difference l) = length l.
Proof.
  destruct l as [|a r]; [reflexivity|]. cbn. rewrite map_length. f_equal. revert a. induction r as [|b r IH]; intros a; [reflexivity|]. cbn. f_equal. apply IH.
Qed.
Lemma max_element_lt l : l <> [] -> (max_element l < length l)%nat.
Proof.
  intros N. unfold max_element. destruct l as [|a r]; [congruence|]. cbn [length]. rewrite Nat.sub_succ, Nat.sub_0_r.
  assert (forall is best, (best < S (length r))%nat -> (forall i, In i is -> (i < S (length r))%nat) ->
    (fold_left (fun best i => if Rlt_dec (nth best (a :: r) 0%R) (nth i (a :: r) 0%R) then i else best) is best < S (length r))%nat) as H.
  { induction is as [|i is IH]; intros best B I; [exact B|]. cbn [fold_left]. apply IH; [|intros j J; apply I; right; exact J].
    destruct (Rlt_dec _ _); [apply I; left; reflexivity|exact B]. }
  apply H; [lia|]. intros i I. apply in_seq in I. lia.
Qed.
Lemma wedge_ok sort points : sorts_reals sort -> points <> [] -> exists s e, smallest_wedge sort points = Ok (s, e).
Proof.
  intros S1 N. unfold smallest_wedge. set (angles := sort (map _ points)).
  assert (length angles = length points) as L by (unfold angles; rewrite (sort_length sort _ S1), map_length; reflexivity).
  assert (0 < length points)%nat as Lp by (destruct points; [congruence|cbn; lia]). clearbody angles. cbv zeta.
  rewrite (LoopFacts.get_ok angles 0 0) by lia. cbn [bind]. rewrite (LoopFacts.get_ok angles _ 0) by lia. cbn [bind].
  destruct (set_nth_ok (adjacent_difference angles) 0 (nth 0 angles 0 + 2 * PI - nth (length angles - 1) angles 0) ltac:(rewrite adjacent_length; lia)) as (d & -> & Ld & _).
  cbn [bind]. rewrite adjacent_length in Ld. assert (d <> []) as Nd by (intros ->; cbn in Ld; lia).
  pose proof (max_element_lt d Nd). rewrite (LoopFacts.get_ok angles (max_element d) 0) by lia. cbn [bind].
  rewrite (LoopFacts.get_ok angles _ 0) by (apply Nat.mod_upper_bound; lia). cbn [bind]. eauto.
Qed.
Lemma box_ok fl sort c pts : sorts_reals sort -> pts <> [] -> exists b, sbox_make fl sort c pts = Ok b.
Proof.
  intros S1 N. unfold sbox_make. cbv zeta.
  assert (forall f, map f (project_to_sphere fl c pts) <> ([] : list v2r)) as M by (intros f; unfold project_to_sphere; destruct pts; [congruence|discriminate]).
  destruct (wedge_ok sort _ S1 (M (fun p => RV2 (ry p) (rz p)))) as (s0 & e0 & ->). cbn [bind].
  destruct (wedge_ok sort _ S1 (M (fun p => RV2 (rz p) (rx p)))) as (s1 & e1 & ->). cbn [bind].
  destruct (wedge_ok sort _ S1 (M (fun p => RV2 (rx p) (ry p)))) as (s2 & e2 & ->). cbn [bind]. eauto.
Qed.
Lemma rltb_iff a b : rltb a b = true <-> a < b. Proof. unfold rltb. destruct (Rlt_dec a b); split; congruence || lra. Qed.
Lemma axis_self s e : axis_apart s e s e = false.
Proof. unfold axis_apart, rltb. destruct (Rlt_dec e s); destruct (Rlt_dec s e); cbn; try reflexivity. lra. Qed.
Lemma box_self b : sbox_separable b b = false. Proof. unfold sbox_separable. rewrite !axis_self. reflexivity. Qed.
Lemma axis_sym s e s' e' : axis_apart s e s' e' = axis_apart s' e' s e.
Proof. unfold axis_apart. apply orb_comm. Qed.
Lemma box_sym a b : sbox_separable a b = sbox_separable b a.
Proof. unfold sbox_separable. f_equal; [f_equal|]; apply axis_sym. Qed.
Lemma test_self fl sort pts : sorts_reals sort -> pts <> [] -> spherical_aabb_test fl sort pts pts = Ok false.
Proof.
  intros S1 N. destruct (box_ok fl sort (RV 0 0 0) pts S1 N) as (b & E). unfold spherical_aabb_test. rewrite E. cbn [bind]. rewrite box_self. reflexivity.
Qed.
Lemma test_sym fl sort pts1 pts2 : sorts_reals sort -> pts1 <> [] -> pts2 <> [] -> exists b, spherical_aabb_test fl sort pts1 pts2 = Ok b /\ spherical_aabb_test fl sort pts2 pts1 = Ok b.
Proof.
  intros S1 N1 N2. destruct (box_ok fl sort (RV 0 0 0) pts1 S1 N1) as (a & E1). destruct (box_ok fl sort (RV 0 0 0) pts2 S1 N2) as (b & E2).
  unfold spherical_aabb_test. rewrite E1, E2. cbn [bind]. rewrite (box_sym b a). eauto.
Qed.
Lemma test_empty fl sort pts : sorts_reals sort -> spherical_aabb_test fl sort [] pts = UB.
Proof.
  intros S1. unfold spherical_aabb_test, sbox_make. cbn [project_to_sphere map]. cbv zeta. unfold smallest_wedge at 1. cbn [map].
  destruct (S1 []) as [P _]. apply Permutation_sym, Permutation_nil in P. rewrite P. reflexivity.
Qed.

(** * single points *)
Lemma atan2_scale k y x : 0 < k -> ratan2 (k * y) (k * x) = ratan2 y x.
Proof.
  intros K. unfold ratan2.
  assert (forall z, (0 < k * z <-> 0 < z) /\ (k * z < 0 <-> z < 0)) as Sg by (intros z; split; split; intros; nra).
  destruct (Rlt_dec 0 (k * x)) as [A|A]; destruct (Rlt_dec 0 x) as [A'|A']; try (exfalso; destruct (Sg x) as [[? ?] _]; tauto).
  - f_equal. field. lra.
  - destruct (Rlt_dec (k * x) 0) as [B|B]; destruct (Rlt_dec x 0) as [B'|B']; try (exfalso; destruct (Sg x) as [_ [? ?]]; tauto).
    + assert (k * y / (k * x) = y / x) as -> by (field; lra).
      destruct (Rlt_dec (k * y) 0) as [C|C]; destruct (Rlt_dec y 0) as [C'|C']; try (exfalso; destruct (Sg y) as [_ [? ?]]; tauto); reflexivity.
    + destruct (Rlt_dec 0 (k * y)) as [C|C]; destruct (Rlt_dec 0 y) as [C'|C']; try (exfalso; destruct (Sg y) as [[? ?] _]; tauto); [reflexivity|].
      destruct (Rlt_dec (k * y) 0) as [D|D]; destruct (Rlt_dec y 0) as [D'|D']; try (exfalso; destruct (Sg y) as [_ [? ?]]; tauto); reflexivity.
Qed.
Lemma unit_scale fl a : exists k, 0 < k /\ rvunit fl a = rvscale a k.
Proof.
  unfold rvunit. pose proof eps_pos.
  destruct a as [x y z]. set (l := rvlength fl _). cbv zeta.
  repeat match goal with |- context [if ?c then _ else _] => destruct c end; try (exists 1; split; [lra|unfold rvscale; cbn; apply v3r_eq; ring]).
  exists (/ l). split; [apply Rinv_0_lt_compat; lra|]. unfold rvscale. cbn. apply v3r_eq; unfold Rdiv; ring.
Qed.
Lemma wedge_one sort p : sorts_reals sort -> smallest_wedge sort [p] = Ok (ratan2 (r2y p) (r2x p), ratan2 (r2y p) (r2x p)).
Proof.
  intros S1. unfold smallest_wedge. cbn [map]. rewrite (sort_sorted sort _ S1) by (repeat constructor). reflexivity.
Qed.
Lemma single_box fl sort p : sorts_reals sort -> exists k, 0 < k /\ sbox_make fl sort (RV 0 0 0) [p] =
  Ok (let q := rvscale p k in let a := RV (ratan2 (rz q) (ry q)) (ratan2 (rx q) (rz q)) (ratan2 (ry q) (rx q)) in SB a a).
Proof.
  intros S1. destruct (unit_scale fl (rvsub p (RV 0 0 0))) as (k & K & E). exists k. split; [exact K|].
  unfold sbox_make, project_to_sphere. cbn [map]. rewrite !(wedge_one sort _ S1). cbn [bind r2x r2y]. rewrite E. cbv zeta.
  assert (rvscale (rvsub p (RV 0 0 0)) k = rvscale p k) as -> by (destruct p; unfold rvscale, rvsub; cbn; apply v3r_eq; ring). reflexivity.
Qed.
Lemma single_sound fl sort p q : sorts_reals sort -> spherical_aabb_test fl sort [p] [q] = Ok true -> ~ same_direction p q.
Proof.
  intros S1 T (m & M & ->). unfold spherical_aabb_test in T.
  destruct (single_box fl sort p S1) as (k & K & E1). destruct (single_box fl sort (rvscale p m) S1) as (k' & K' & E2).
  rewrite E1, E2 in T. cbn [bind] in T. cbv zeta in T. unfold rvscale in T. cbn [rx ry rz] in T.
  rewrite !(Rmult_comm _ k'), !(Rmult_comm _ k), !(Rmult_comm _ m) in T. rewrite !atan2_scale in T by assumption. rewrite box_self in T. discriminate T.
Qed.

(** * two sets with a common point *)
Definition arc1 : list v3r := [RV 1 0 0; RV (4 / 5) (3 / 5) 0; RV (3 / 5) (4 / 5) 0].
Definition arc2 : list v3r := [RV (3 / 5) (4 / 5) 0; RV (5 / 13) (12 / 13) 0].
Lemma unit_stays fl a : float_rounding fl -> rvsq a = 1 -> rvunit fl (rvsub a (RV 0 0 0)) = a.
Proof.
  intros F Sq. assert (rvsub a (RV 0 0 0) = a) as -> by (destruct a; unfold rvsub; cbn; apply v3r_eq; ring).
  unfold rvunit, rvlength. rewrite Sq. rewrite (fl_int fl 1 F), sqrt_1, (fl_int fl 1 F) by lia. pose proof eps_pos.
  cbv zeta. repeat match goal with |- context [if ?c then _ else _] => destruct c end; try reflexivity. exfalso. lra.
Qed.
Lemma atan2_pos y x : 0 < x -> ratan2 y x = atan (y / x). Proof. intros H. unfold ratan2. destruct (Rlt_dec 0 x); [reflexivity|lra]. Qed.
Lemma atan_lt a b : a < b -> atan a < atan b. Proof. exact (atan_increasing a b). Qed.
Lemma max_first a l : (forall x, In x l -> x <= a) -> max_element (a :: l) = 0%nat.
Proof.
  intros H. unfold max_element. cbn [length]. rewrite Nat.sub_succ, Nat.sub_0_r.
  assert (forall is, fold_left (fun best i => if Rlt_dec (nth best (a :: l) 0) (nth i (a :: l) 0) then i else best) (map S is) 0%nat = 0%nat \/ exists i, In i is /\ (length l <= i)%nat) as K.
  { induction is as [|i is IH]; [left; reflexivity|]. destruct IH as [IH|(j & J & Lj)]; [|right; exists j; split; [right; exact J|exact Lj]].
    destruct (Nat.lt_ge_cases i (length l)) as [L|L]; [|right; exists i; split; [left; reflexivity|exact L]]. left. cbn [map fold_left].
    destruct (Rlt_dec (nth 0 (a :: l) 0) (nth (S i) (a :: l) 0)) as [C|C]; [|exact IH]. cbn [nth] in C.
    pose proof (H (nth i l 0) (nth_In l 0 L)). lra. }
  destruct (K (seq 0 (length l))) as [E|(i & I & L)]; [rewrite seq_shift in E; exact E|]. apply in_seq in I. lia.
Qed.
Lemma arcs_apart fl sort : float_rounding fl -> sorts_reals sort -> spherical_aabb_test fl sort arc1 arc2 = Ok true.
Proof.
  intros F S1. unfold spherical_aabb_test, sbox_make.
  assert (project_to_sphere fl (RV 0 0 0) arc1 = arc1) as E1.
  { unfold project_to_sphere, arc1. cbn [map]. rewrite !(unit_stays fl) by (try exact F; unfold rvsq; cbn; lra). reflexivity. }
  assert (project_to_sphere fl (RV 0 0 0) arc2 = arc2) as E2.
  { unfold project_to_sphere, arc2. cbn [map]. rewrite !(unit_stays fl) by (try exact F; unfold rvsq; cbn; lra). reflexivity. }
  rewrite E1, E2. cbv zeta.
  assert (forall f, map f arc1 <> ([] : list v2r)) as M1 by discriminate. assert (forall f, map f arc2 <> ([] : list v2r)) as M2 by discriminate.
  destruct (wedge_ok sort _ S1 (M1 (fun p => RV2 (ry p) (rz p)))) as (a0 & b0 & ->). cbn [bind].
  destruct (wedge_ok sort _ S1 (M1 (fun p => RV2 (rz p) (rx p)))) as (a1 & b1 & ->). cbn [bind].
  destruct (wedge_ok sort _ S1 (M2 (fun p => RV2 (ry p) (rz p)))) as (c0 & d0 & ->). cbn [bind].
  destruct (wedge_ok sort _ S1 (M2 (fun p => RV2 (rz p) (rx p)))) as (c1 & d1 & ->). cbn [bind].
  pose proof (atan_lt 0 (3/4) ltac:(lra)) as L1. pose proof (atan_lt (3/4) (4/3) ltac:(lra)) as L2. pose proof (atan_lt (4/3) (12/5) ltac:(lra)) as L3.
  rewrite atan_0 in L1. pose proof (atan_bound (12/5)) as [_ B]. pose proof PI_RGT_0 as PP.
  assert (smallest_wedge sort (map (fun p => RV2 (rx p) (ry p)) arc1) = Ok (0, atan (3/4))) as ->.
  { unfold smallest_wedge, arc1. cbn [map r2x r2y rx ry rz]. rewrite !atan2_pos by lra.
    replace (0 / 1) with 0 by field. replace (3 / 5 / (4 / 5)) with (3 / 4) by field. replace (4 / 5 / (3 / 5)) with (4 / 3) by field. rewrite atan_0.
    rewrite (sort_sorted sort) by (try exact S1; repeat constructor; lra).
    cbn [get nth_error of_option bind length Nat.sub adjacent_difference combine map set_nth fst snd]. rewrite max_first; [reflexivity|].
    intros x [<-|[<-|[]]]; lra. }
  cbn [bind].
  assert (smallest_wedge sort (map (fun p => RV2 (rx p) (ry p)) arc2) = Ok (atan (4/3), atan (12/5))) as ->.
  { unfold smallest_wedge, arc2. cbn [map r2x r2y rx ry rz]. rewrite !atan2_pos by lra.
    replace (12 / 13 / (5 / 13)) with (12 / 5) by field. replace (4 / 5 / (3 / 5)) with (4 / 3) by field.
    rewrite (sort_sorted sort) by (try exact S1; repeat constructor; lra).
    cbn [get nth_error of_option bind length Nat.sub adjacent_difference combine map set_nth fst snd]. rewrite max_first; [reflexivity|].
    intros x [<-|[]]; lra. }
  cbn [bind]. f_equal. unfold sbox_separable. cbn [sb_start sb_end rx ry rz]. apply orb_true_iff. right. unfold axis_apart.
  apply orb_true_iff. left. apply andb_true_iff. split; apply rltb_iff; lra.
Qed.

Lemma box_intersects fl sort A B a b : sbox_make fl sort (RV 0 0 0) A = Ok a -> sbox_make fl sort (RV 0 0 0) B = Ok b ->
  (sbox_intersects a b = true <-> spherical_aabb_test fl sort A B = Ok false).
Proof. intros E1 E2. unfold spherical_aabb_test, sbox_intersects. rewrite E1, E2. cbn [bind]. destruct (sbox_separable a b); cbn; split; congruence. Qed.
