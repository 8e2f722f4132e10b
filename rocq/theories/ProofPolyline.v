(** Proofs about polyline assembly. *)
From Coq Require Import List ZArith Lia QArith Qcanon Qround Lqa Bool Permutation.
From Verif Require Import Base BaseFacts LoopFacts ModelVec ModelMemView ModelPolyline SpecPolyline ProofMinimize ProofClosest.
Import ListNotations.
Open Scope Qc_scope.

(** ** The index as a finite map *)
Lemma pkey_eqb_iff a b : pkey_eqb a b = true <-> a = b.
Proof.
  destruct a as [[x y] z], b as [[x' y'] z']. unfold pkey_eqb. rewrite !andb_true_iff, !Z.eqb_eq.
  split; [intros [[-> ->] ->]; reflexivity|intros [= -> -> ->]; auto].
Qed.
Lemma pkey_eqb_refl a : pkey_eqb a a = true.
Proof. apply pkey_eqb_iff. reflexivity. Qed.
Lemma pkey_eqb_neq a b : a <> b -> pkey_eqb a b = false.
Proof. intros H. destruct (pkey_eqb a b) eqn:E; [|reflexivity]. apply pkey_eqb_iff in E. contradiction. Qed.
Lemma pkey_dec (a b : pkey) : {a = b} + {a <> b}.
Proof. destruct (pkey_eqb a b) eqn:E; [left; apply pkey_eqb_iff; assumption|right; intros ->; rewrite pkey_eqb_refl in E; discriminate]. Qed.

Lemma ix_find_erase_same k ix : ix_find k (ix_erase k ix) = None.
Proof.
  unfold ix_erase. induction ix as [|[k' b] t IH]; [reflexivity|]. cbn [filter fst].
  destruct (pkey_eqb k k') eqn:E; cbn [negb]; [assumption|]. cbn [ix_find]. rewrite E. assumption.
Qed.
Lemma ix_find_erase_other k k' ix : k <> k' -> ix_find k (ix_erase k' ix) = ix_find k ix.
Proof.
  intros H. unfold ix_erase. induction ix as [|[k2 b] t IH]; [reflexivity|]. cbn [filter fst].
  destruct (pkey_eqb k' k2) eqn:E; cbn [negb].
  - apply pkey_eqb_iff in E. subst k2. cbn [ix_find]. rewrite (pkey_eqb_neq k k' H). assumption.
  - cbn [ix_find]. rewrite IH. reflexivity.
Qed.
Lemma ix_at_erase_same k ix : ix_at k (ix_erase k ix) = [].
Proof. unfold ix_at. rewrite ix_find_erase_same. reflexivity. Qed.
Lemma ix_at_erase_other k k' ix : k <> k' -> ix_at k (ix_erase k' ix) = ix_at k ix.
Proof. intros H. unfold ix_at. rewrite ix_find_erase_other by assumption. reflexivity. Qed.
Lemma ix_at_put_same k b ix : ix_at k (ix_put k b ix) = b.
Proof. unfold ix_at, ix_put. cbn [ix_find]. rewrite pkey_eqb_refl. reflexivity. Qed.
Lemma ix_at_put_other k k' b ix : k <> k' -> ix_at k (ix_put k' b ix) = ix_at k ix.
Proof.
  intros H. unfold ix_at, ix_put. cbn [ix_find]. rewrite (pkey_eqb_neq k k' H), ix_find_erase_other by assumption. reflexivity.
Qed.

(** ** Quantisation *)
Lemma int_op_ok z : (- 2 ^ 31 <= z < 2 ^ 31)%Z -> int_op z = Ok z.
Proof.
  intros [H1 H2]. unfold int_op. rewrite (proj2 (Z.leb_le _ _) H1), (proj2 (Z.ltb_lt _ _) H2). reflexivity.
Qed.
Lemma int_op_ub z : (z < - 2 ^ 31 \/ 2 ^ 31 <= z)%Z -> int_op z = UB.
Proof.
  intros H. unfold int_op. destruct (Z.leb_spec (- 2 ^ 31) z); [|reflexivity]. destruct (Z.ltb_spec z (2 ^ 31)); [lia|reflexivity].
Qed.

Definition W : Qc := Qc_of_Z 4503599627370496.
Lemma div_eps c : c / PL_EPS = c * W.
Proof.
  unfold Qcdiv. f_equal.
Qed.

Lemma floor_bounds (q : Qc) : Qc_of_Z (qc_floor q) <= q /\ q < Qc_of_Z (qc_floor q) + 1.
Proof.
  unfold qc_floor. split.
  - rewrite Qc_le_this, this_of_Z. apply Qfloor_le.
  - unfold Qclt. rewrite this_plus, this_of_Z. pose proof (Qlt_floor (this q)) as H. rewrite inject_Z_plus in H. exact H.
Qed.

Lemma Qc_of_Z_le a b : Qc_of_Z a <= Qc_of_Z b <-> (a <= b)%Z.
Proof. rewrite Qc_le_this, !this_of_Z. rewrite <- Zle_Qle. reflexivity. Qed.
Lemma Qc_of_Z_lt a b : Qc_of_Z a < Qc_of_Z b <-> (a < b)%Z.
Proof.
  split; intros H.
  - apply Z.nle_gt. intros H2. apply Qc_of_Z_le in H2. exact (Qclt_not_le _ _ H H2).
  - apply Qcnot_le_lt. rewrite Qc_of_Z_le. lia.
Qed.
Lemma Qc_of_Z_add a b : Qc_of_Z (a + b) = Qc_of_Z a + Qc_of_Z b.
Proof. apply Qc_is_canon. rewrite this_plus, !this_of_Z, inject_Z_plus. reflexivity. Qed.

Definition LIM : Z := 2147483646.
Definition cell (c : Qc) : Z := qc_floor (c / PL_EPS + qc 1 2).

Lemma cell_bounds c : Qc_of_Z (cell c) <= c * W + qc 1 2 /\ c * W + qc 1 2 < Qc_of_Z (cell c) + 1.
Proof. unfold cell. rewrite div_eps. apply floor_bounds. Qed.

Ltac zlra :=
  qcb; qc_push; rewrite ?this_of_Z in *;
  repeat match goal with
  | H : context [inject_Z (cell ?c)] |- _ => let z := fresh "z" in set (z := inject_Z (cell c)) in *; clearbody z
  | |- context [inject_Z (cell ?c)] => let z := fresh "z" in set (z := inject_Z (cell c)) in *; clearbody z
  | H : context [inject_Z (qc_floor ?c)] |- _ => let z := fresh "z" in set (z := inject_Z (qc_floor c)) in *; clearbody z
  | |- context [inject_Z (qc_floor ?c)] => let z := fresh "z" in set (z := inject_Z (qc_floor c)) in *; clearbody z
  end; unfold inject_Z in *; lra.

Lemma abs_le_both c b : Qcabs c <= b -> - b <= c /\ c <= b.
Proof. destruct (Qcabs_cases c) as [[H E]|[H E]]; rewrite E; intros; split; qc_lra. Qed.

Lemma cell_small c : small c -> (- LIM <= cell c <= LIM)%Z.
Proof.
  intros H. unfold small in H. apply abs_le_both in H as [H1 H2].
  destruct (cell_bounds c) as [B1 B2]. unfold W in *. unfold LIM.
  split.
  - apply Z.nlt_ge. intros L. assert (cell c + 1 <= - 2147483646)%Z as L2 by lia.
    apply Qc_of_Z_le in L2. rewrite Qc_of_Z_add in L2. zlra.
  - apply Z.nlt_ge. intros L. assert (2147483647 <= cell c)%Z as L2 by lia.
    apply Qc_of_Z_le in L2. zlra.
Qed.
Lemma cell_near a b : a - b < qc 1 4503599627370496 -> b - a < qc 1 4503599627370496 -> (-1 <= cell a - cell b <= 1)%Z.
Proof.
  intros H1 H2. destruct (cell_bounds a) as [A1 A2]. destruct (cell_bounds b) as [B1 B2]. unfold W in *.
  split; apply Z.nlt_ge; intros L.
  - assert (cell a + 2 <= cell b)%Z as L2 by lia. apply Qc_of_Z_le in L2. rewrite Qc_of_Z_add in L2.
    zlra.
  - assert (cell b + 2 <= cell a)%Z as L2 by lia. apply Qc_of_Z_le in L2. rewrite Qc_of_Z_add in L2.
    zlra.
Qed.
(** a coordinate with a cell that is an int *)
Definition fits (c : Qc) : Prop := (- 2 ^ 31 <= cell c < 2 ^ 31)%Z.
Definition fits3 (p : vec3) : Prop := fits (vx p) /\ fits (vy p) /\ fits (vz p).
Definition fits_segment (s : segment) : Prop := fits3 (sp1 s) /\ fits3 (sp2 s).
Lemma small_fits c : small c -> fits c.
Proof. intros H. apply cell_small in H. unfold LIM in H. unfold fits. lia. Qed.
Lemma small_fits3 p : small3 p -> fits3 p.
Proof. intros (A & B & C). repeat split; apply small_fits; assumption. Qed.
Lemma cell_of_fits c : fits c -> cell_of c = Ok (cell c).
Proof. intros H. unfold cell_of. apply int_op_ok. exact H. Qed.

Definition key3 (p : vec3) : pkey := (cell (vx p), cell (vy p), cell (vz p)).
Lemma key_of_fits p : fits3 p -> key_of p = Ok (key3 p).
Proof.
  intros (H1 & H2 & H3). unfold key_of. rewrite !cell_of_fits by assumption. reflexivity.
Qed.

Lemma fits_one c : fits c -> - (1) <= c /\ c <= 1.
Proof.
  intros (A & B). destruct (cell_bounds c) as [B1 B2]. unfold W in *. change (- 2 ^ 31)%Z with (-2147483648)%Z in A. change (2 ^ 31)%Z with 2147483648%Z in B.
  apply Qc_of_Z_le in A. apply Qc_of_Z_lt in B. split; zlra.
Qed.
Lemma trunc_fits c : fits c -> exists z, int_op (qc_trunc c) = Ok z.
Proof.
  intros H. apply fits_one in H as [H1 H2]. exists (qc_trunc c). apply int_op_ok.
  unfold qc_trunc. destruct (Qcltb_spec c 0) as [L|L].
  - destruct (floor_bounds (- c)) as [B1 B2]. split.
    + assert (qc_floor (- c) <= 1)%Z; [|lia]. apply Qc_of_Z_le. zlra.
    + assert (0 <= qc_floor (- c))%Z; [|lia].
      assert (0 < qc_floor (- c) + 1)%Z; [|lia]. apply Qc_of_Z_lt. rewrite Qc_of_Z_add. zlra.
  - destruct (floor_bounds c) as [B1 B2]. split.
    + assert (0 < qc_floor c + 1)%Z; [|lia]. apply Qc_of_Z_lt. rewrite Qc_of_Z_add. zlra.
    + assert (qc_floor c <= 1)%Z; [|lia]. apply Qc_of_Z_le. zlra.
Qed.
Lemma raw_key_fits p : fits3 p -> exists k, raw_key (vx p) (vy p) (vz p) = Ok k.
Proof.
  intros (H1 & H2 & H3). unfold raw_key.
  destruct (trunc_fits _ H1) as [x ->]. destruct (trunc_fits _ H2) as [y ->]. destruct (trunc_fits _ H3) as [z ->].
  cbn [bind]. eauto.
Qed.

Lemma sq_lt_inv e a : 0 < e -> a * a < e * e -> a < e.
Proof. intros He Ha. apply Qcnot_le_lt. intros L. revert He Ha L. generalize e. clear e. intros e He Ha L. qc_nra. Qed.

(** ** Searching the neighbourhood *)
Lemma mapM_all {A B} (f : A -> res B) (g : A -> B) l : (forall a, In a l -> f a = Ok (g a)) -> mapM f l = Ok (map g l).
Proof.
  induction l as [|a t IH]; intros H; [reflexivity|]. cbn [mapM map]. rewrite (H a) by (left; reflexivity). cbn [bind].
  rewrite IH by (intros; apply H; right; assumption). reflexivity.
Qed.
Lemma offsets_iff dx dy dz : In (dx, dy, dz) offsets <-> (-1 <= dx <= 1 /\ -1 <= dy <= 1 /\ -1 <= dz <= 1)%Z.
Proof.
  unfold offsets. rewrite in_flat_map. setoid_rewrite in_flat_map. setoid_rewrite in_map_iff. split.
  - intros (a & Ha & b & Hb & c & E & Hc). injection E as -> -> ->. cbn [In] in *. lia.
  - intros (H1 & H2 & H3). exists dx. split; [cbn [In]; lia|]. exists dy. split; [cbn [In]; lia|]. exists dz. split; [reflexivity|cbn [In]; lia].
Qed.

Lemma mapM_or {A B} (f : A -> res B) (g : A -> B) l : (forall a, f a = UB \/ f a = Ok (g a)) -> mapM f l = UB \/ mapM f l = Ok (map g l).
Proof.
  intros H. induction l as [|a l IH]; [right; reflexivity|]. cbn [mapM map]. destruct (H a) as [->| ->]; [left; reflexivity|]. cbn [bind].
  destruct IH as [->| ->]; [left|right]; reflexivity.
Qed.
Lemma int_op_cases z : int_op z = UB \/ int_op z = Ok z.
Proof. destruct (Z.lt_ge_cases z (- 2 ^ 31)); [left; apply int_op_ub; lia|]. destruct (Z.lt_ge_cases z (2 ^ 31)); [right; apply int_op_ok; lia|left; apply int_op_ub; lia]. Qed.
Lemma nearby_ok ix p : fits3 p -> (find_nearby_endpoints ix p = UB /\ ~ small3 p) \/ exists l, find_nearby_endpoints ix p = Ok l /\
  (forall e, In e l -> exists k, In e (ix_at k ix)) /\
  (forall q e, In e (ix_at (key3 q) ix) ->
    close_points q p -> In e l).
Proof.
  intros Hs. unfold find_nearby_endpoints. rewrite (key_of_fits p Hs). cbn [bind key3].
  set (f := fun d : pkey => let '(dx, dy, dz) := d in _).
  set (g := fun d : pkey => let '(dx, dy, dz) := d in ix_at (cell (vx p) + dx, cell (vy p) + dy, cell (vz p) + dz)%Z ix).
  destruct (mapM_or f g offsets) as [E|E].
  { intros [[dx dy] dz]. unfold f, g. destruct (int_op_cases (cell (vx p) + dx)) as [->| ->]; [left; reflexivity|]. cbn [bind].
    destruct (int_op_cases (cell (vy p) + dy)) as [->| ->]; [left; reflexivity|]. cbn [bind].
    destruct (int_op_cases (cell (vz p) + dz)) as [->| ->]; [left; reflexivity|right; reflexivity]. }
  { left. rewrite E. split; [reflexivity|]. intros (S1 & S2 & S3). apply cell_small in S1, S2, S3. unfold LIM in *.
    rewrite (mapM_all f g) in E; [discriminate|]. intros [[dx dy] dz] H. apply offsets_iff in H. unfold f, g. rewrite !int_op_ok by lia. reflexivity. }
  right. rewrite E. subst f g. cbn [bind]. eexists. split; [reflexivity|]. split.
  - intros e H. apply in_concat in H as (l & Hl & He). apply in_map_iff in Hl as ([[dx dy] dz] & El & _). subst l. eauto.
  - intros q e He Hd. apply in_concat. exists (ix_at (key3 q) ix). split; [|assumption].
    apply in_map_iff. exists (cell (vx q) - cell (vx p), cell (vy q) - cell (vy p), cell (vz q) - cell (vz p))%Z. split.
    + unfold key3. f_equal. f_equal; [f_equal|]; lia.
    + assert (forall a, Qcabs a < qc 1 4503599627370496 -> a < qc 1 4503599627370496 /\ - a < qc 1 4503599627370496) as K.
      { intros a Ha. destruct (Qcabs_cases a) as [[S E0]|[S E0]]; rewrite E0 in Ha; split; qc_lra. }
      destruct Hd as (HX & HY & HZ). destruct (K _ HX) as [X1 X2]. destruct (K _ HY) as [Y1 Y2]. destruct (K _ HZ) as [Z1 Z2].
      apply offsets_iff. assert (forall a b, - (a - b) = b - a) as Sw by (intros; ring). rewrite Sw in X2, Y2, Z2.
      split; [apply cell_near; assumption|]. split; apply cell_near; assumption.
Qed.

(** ** Endpoints *)
Definition pt_of (s : segment) (b : bool) : vec3 := if b then sp1 s else sp2 s.

Lemma endpoints_inv segs : forall i e ep, nth_error (make_endpoints i segs) e = Some ep ->
  exists n s, ep_seg ep = (i + n)%nat /\ nth_error segs n = Some s /\ ep_point ep = pt_of s (ep_p1 ep).
Proof.
  induction segs as [|s t IH]; intros i e ep H; [destruct e; discriminate|].
  cbn [make_endpoints] in H. destruct e as [|[|e]]; cbn [nth_error] in H.
  - injection H as <-. exists 0%nat, s. cbn. split; [lia|auto].
  - injection H as <-. exists 0%nat, s. cbn. split; [lia|auto].
  - apply IH in H as (n & s' & E1 & E2 & E3). exists (S n), s'. split; [lia|]. auto.
Qed.
Lemma endpoints_all segs : forall i n s b, nth_error segs n = Some s ->
  exists e, nth_error (make_endpoints i segs) e = Some (EP (pt_of s b) (i + n) b).
Proof.
  induction segs as [|s0 t IH]; intros i n s b H; [destruct n; discriminate|].
  destruct n; cbn [nth_error] in H.
  - injection H as <-. rewrite Nat.add_0_r. destruct b; [exists 0%nat|exists 1%nat]; reflexivity.
  - destruct (IH (S i) n s b H) as (e & E). exists (S (S e)). cbn [make_endpoints nth_error]. rewrite E. do 2 f_equal. lia.
Qed.

Lemma get_nth {A} (l : list A) i a : nth_error l i = Some a -> get l i = Ok a.
Proof. intros H. unfold get. rewrite H. reflexivity. Qed.
Lemma nth_some {A} (l : list A) i : (i < length l)%nat -> exists a, nth_error l i = Some a.
Proof. intros H. destruct (nth_error l i) eqn:E; [eauto|]. apply nth_error_None in E. lia. Qed.

Lemma opposite_inv eps ep : forall i o, opposite_from eps i ep = Some o ->
  exists e, nth_error eps (o - i) = Some e /\ (i <= o)%nat /\ ep_seg e = ep_seg ep.
Proof.
  induction eps as [|h t IH]; intros i o H; [discriminate|]. cbn [opposite_from] in H.
  destruct (Nat.eqb (ep_seg h) (ep_seg ep) && negb (Bool.eqb (ep_p1 h) (ep_p1 ep))) eqn:E.
  - injection H as <-. exists h. rewrite Nat.sub_diag. apply andb_true_iff in E as [E _]. apply Nat.eqb_eq in E. auto.
  - apply IH in H as (e & E1 & E2 & E3). exists e. replace (o - i)%nat with (S (o - S i)) by lia. repeat apply conj; [assumption|lia|assumption].
Qed.

Section Run.
Variable near : vec3 -> vec3 -> bool.
Variable segs : list segment.
Hypothesis Hfits : Forall fits_segment segs.
Let eps := make_endpoints 0 segs.

Lemma ep_facts e ep : nth_error eps e = Some ep ->
  exists s, nth_error segs (ep_seg ep) = Some s /\ ep_point ep = pt_of s (ep_p1 ep).
Proof. intros H. apply endpoints_inv in H as (n & s & E1 & E2 & E3). cbn in E1. subst n. eauto. Qed.
Lemma pt_fits n s b : nth_error segs n = Some s -> fits3 (pt_of s b).
Proof.
  intros H. apply nth_error_In in H. rewrite Forall_forall in Hfits. destruct (Hfits s H). destruct b; assumption.
Qed.
Lemma ep_fits e ep : nth_error eps e = Some ep -> fits3 (ep_point ep).
Proof. intros H. apply ep_facts in H as (s & H & ->). eapply pt_fits; eassumption. Qed.

(** the index knows every endpoint of an unused segment *)
Definition ix_inv (ix : sindex) (dn : list nat) : Prop :=
  (forall k e, In e (ix_at k ix) -> (e < length eps)%nat) /\
  (forall e ep, nth_error eps e = Some ep -> ~ In (ep_seg ep) dn -> In e (ix_at (key3 (ep_point ep)) ix)).

Lemma add_ok ix e : (e < length eps)%nat -> exists ix', add_to_index eps ix e = Ok ix' /\
  (forall k x, In x (ix_at k ix') -> In x (ix_at k ix) \/ x = e) /\
  (forall k x, In x (ix_at k ix) -> In x (ix_at k ix')) /\
  (forall ep, nth_error eps e = Some ep -> In e (ix_at (key3 (ep_point ep)) ix')).
Proof.
  intros H. destruct (nth_some eps e H) as (ep & E). unfold add_to_index. rewrite (get_nth _ _ _ E). cbn [bind].
  rewrite (key_of_fits _ (ep_fits _ _ E)). cbn [bind]. eexists. split; [reflexivity|]. split; [|split].
  - intros k x Hx. destruct (pkey_dec k (key3 (ep_point ep))) as [->|N].
    + rewrite ix_at_put_same in Hx. apply in_app_or in Hx as [Hx|[Hx|[]]]; auto.
    + rewrite ix_at_put_other in Hx by assumption. auto.
  - intros k x Hx. destruct (pkey_dec k (key3 (ep_point ep))) as [->|N].
    + rewrite ix_at_put_same. apply in_or_app. auto.
    + rewrite ix_at_put_other by assumption. auto.
  - intros ep' E'. rewrite E in E'. injection E' as <-. rewrite ix_at_put_same. apply in_or_app. right. left. reflexivity.
Qed.

Lemma build_ok : exists ix, build_index eps = Ok ix /\ ix_inv ix [].
Proof.
  unfold build_index.
  destruct (for_up_inv (fun i ix => (forall k e, In e (ix_at k ix) -> (e < length eps)%nat) /\
     (forall e ep, (e < i)%nat -> nth_error eps e = Some ep -> In e (ix_at (key3 (ep_point ep)) ix)))
     (fun e ix => add_to_index eps ix e) (length eps) 0 []) as (ix & E & H1 & H2).
  - split; [intros k e []|intros; lia].
  - intros i ix _ Hi [H1 H2]. destruct (add_ok ix i Hi) as (ix' & E & A1 & A2 & A3). exists ix'. split; [assumption|]. split.
    + intros k e He. apply A1 in He as [He|He]; [eauto|subst; assumption].
    + intros e ep He Hep. destruct (Nat.eq_dec e i) as [->|N]; [apply A3; assumption|]. apply A2. apply H2; [lia|assumption].
  - exists ix. split; [assumption|]. split; [assumption|]. intros e ep He _. apply H2; [|assumption]. apply nth_error_Some. congruence.
Qed.

Lemma remove_ok ix e : (e < length eps)%nat -> exists ix', remove_from_index eps ix e = Ok ix' /\
  forall k x, (In x (ix_at k ix') -> In x (ix_at k ix)) /\ (In x (ix_at k ix) -> x <> e -> In x (ix_at k ix')).
Proof.
  intros H. destruct (nth_some eps e H) as (ep & E). unfold remove_from_index. rewrite (get_nth _ _ _ E). cbn [bind].
  destruct (raw_key_fits _ (ep_fits _ _ E)) as (rk & ->). cbn [bind].
  set (b := filter (fun e' => negb (Nat.eqb e e')) (ix_at rk ix)).
  assert (forall x, In x b <-> In x (ix_at rk ix) /\ x <> e) as Hb.
  { intros x. unfold b. rewrite filter_In, negb_true_iff, Nat.eqb_neq. intuition congruence. }
  assert (forall k x ix', (ix_at rk ix' = b) -> (forall k', k' <> rk -> ix_at k' ix' = ix_at k' ix) ->
    (In x (ix_at k ix') -> In x (ix_at k ix)) /\ (In x (ix_at k ix) -> x <> e -> In x (ix_at k ix'))) as K.
  { intros k x ix' E1 E2. destruct (pkey_dec k rk) as [->|N]; [rewrite E1; rewrite Hb; tauto|rewrite E2 by assumption; tauto]. }
  destruct b as [|b0 bt] eqn:Eb.
  - eexists. split; [reflexivity|]. intros k x. apply K; [apply ix_at_erase_same|intros; apply ix_at_erase_other; assumption].
  - eexists. split; [reflexivity|]. intros k x. apply K; [apply ix_at_put_same|intros; apply ix_at_put_other; assumption].
Qed.

Lemma drop_ok ix dn e ep : nth_error eps e = Some ep -> ix_inv ix dn ->
  exists ix', drop_endpoints eps ix e = Ok ix' /\ ix_inv ix' (ep_seg ep :: dn).
Proof.
  intros E [I1 I2]. assert (e < length eps)%nat as He by (apply nth_error_Some; congruence).
  unfold drop_endpoints. rewrite (get_nth _ _ _ E). cbn [bind].
  destruct (remove_ok ix e He) as (ix1 & -> & R1). cbn [bind].
  assert (ix_inv ix1 (ep_seg ep :: dn)) as [J1 J2].
  { split; [intros k x Hx; apply (I1 k), R1; assumption|]. intros x xp Ex Hx.
    apply R1; [apply I2; [assumption|intros K; apply Hx; right; assumption]|].
    intros ->. rewrite E in Ex. injection Ex as <-. apply Hx. left. reflexivity. }
  destruct (opposite_from eps 0 ep) as [o|] eqn:Eo.
  - apply opposite_inv in Eo as (oe & E1 & _ & E2). rewrite Nat.sub_0_r in E1.
    destruct (remove_ok ix1 o) as (ix2 & -> & R2); [apply nth_error_Some; congruence|].
    exists ix2. split; [reflexivity|]. split; [intros k x Hx; apply (J1 k), R2; assumption|]. intros x xp Ex Hx.
    apply R2; [apply J2; assumption|]. intros ->. rewrite E1 in Ex. injection Ex as <-. apply Hx. left. congruence.
  - exists ix1. split; [reflexivity|]. split; assumption.
Qed.

Lemma processed_iff s dn : processed s dn = true <-> In s dn.
Proof.
  unfold processed. rewrite existsb_exists. split.
  - intros (x & H & E). apply Nat.eqb_eq in E. subst. assumption.
  - intros H. exists s. split; [assumption|apply Nat.eqb_refl].
Qed.
Lemma processed_false s dn : processed s dn = false <-> ~ In s dn.
Proof. rewrite <- processed_iff. destruct (processed s dn); split; congruence. Qed.

Lemma pick_ok dn cur cands : (forall e, In e cands -> (e < length eps)%nat) ->
  exists r, pick near eps cands dn cur = Ok r /\
  match r with
  | Some e => exists ep, nth_error eps e = Some ep /\ ~ In (ep_seg ep) dn /\ near (ep_point ep) cur = true
  | None => forall e ep, In e cands -> nth_error eps e = Some ep -> In (ep_seg ep) dn \/ near (ep_point ep) cur = false
  end.
Proof.
  induction cands as [|e t IH]; intros H.
  - exists None. split; [reflexivity|]. intros e ep [].
  - destruct (nth_some eps e) as (ep & E); [apply H; left; reflexivity|].
    cbn [pick]. rewrite (get_nth _ _ _ E). cbn [bind].
    destruct IH as (r & Er & Hr); [intros; apply H; right; assumption|].
    destruct (processed (ep_seg ep) dn) eqn:Ep.
    + exists r. split; [assumption|]. destruct r; [assumption|]. intros x xp [->|Hx] Ex; [|eauto].
      rewrite E in Ex. injection Ex as <-. left. apply processed_iff. assumption.
    + destruct (near (ep_point ep) cur) eqn:En.
      * exists (Some e). split; [reflexivity|]. exists ep. split; [assumption|]. split; [apply processed_false|]; assumption.
      * exists r. split; [assumption|]. destruct r; [assumption|]. intros x xp [->|Hx] Ex; [|eauto].
        rewrite E in Ex. injection Ex as <-. right. assumption.
Qed.

(** ** Extending a polyline *)
Definition is_pt (p : vec3) : Prop := exists n s b, nth_error segs n = Some s /\ p = pt_of s b.
Lemma is_pt_fits p : is_pt p -> fits3 p.
Proof. intros (n & s & b & H & ->). eapply pt_fits; eassumption. Qed.
Lemma is_pt_small p : Forall small_segment segs -> is_pt p -> small3 p.
Proof. intros F (n & s & b & H & ->). rewrite Forall_forall in F. destruct (F s (nth_error_In _ _ H)). destruct b; assumption. Qed.

Definition chain_inv (prev : list nat) (st : pstate) (us : list (nat * bool)) : Prop :=
  let '(ix, dn, pl) := st in
  ix_inv ix dn /\ Forall is_pt pl /\ walks near segs pl us /\
  Permutation dn (map fst us ++ prev) /\ NoDup dn /\ (forall s, In s dn -> (s < length segs)%nat).

Lemma walks_front pl us s n f cur rest :
  pl = cur :: rest -> walks near segs pl us -> nth_error segs n = Some s -> near (walk_end s f) cur = true ->
  walks near segs (walk_start s f :: pl) ((n, f) :: us).
Proof.
  intros -> [L H] Es Hn. split; [cbn in *; lia|]. intros [|k] i fwd E; cbn [nth_error] in E.
  - injection E as <- <-. exists s, (walk_start s f), cur. cbn. auto 6.
  - apply H in E as (s' & p & q & E). exists s', p, q. exact E.
Qed.
Lemma walks_back pl us s n f cur :
  nth_error pl (length pl - 1) = Some cur -> walks near segs pl us -> nth_error segs n = Some s -> near (walk_start s f) cur = true ->
  walks near segs (pl ++ [walk_end s f]) (us ++ [(n, f)]).
Proof.
  intros Ec [L H] Es Hn. split; [rewrite !app_length; cbn; lia|]. intros k i fwd E.
  destruct (Nat.lt_trichotomy k (length us)) as [K|[K|K]].
  - rewrite nth_error_app1 in E by assumption. apply H in E as (s' & p & q & E1 & E2 & E3 & E4).
    exists s', p, q. rewrite !nth_error_app1 by lia. auto.
  - subst k. rewrite nth_error_app2, Nat.sub_diag in E by lia. cbn in E. injection E as <- <-.
    exists s, cur, (walk_end s f). split; [assumption|]. split; [|split; [|split; [right; assumption|left; reflexivity]]].
    + rewrite nth_error_app1 by lia. rewrite <- Ec. f_equal. lia.
    + rewrite nth_error_app2 by lia. replace (S (length us) - length pl)%nat with 0%nat by lia. reflexivity.
  - assert (nth_error (us ++ [(n, f)]) k = None) by (apply nth_error_None; rewrite app_length; cbn; lia). congruence.
Qed.

(** no unused endpoint is near [p] *)
Definition dead (dn : list nat) (p : vec3) : Prop :=
  forall e ep, nth_error eps e = Some ep -> ~ In (ep_seg ep) dn -> near (ep_point ep) p = false.

Definition end_of (front : bool) (pl : list vec3) : option vec3 := nth_error pl (if front then 0%nat else (length pl - 1)%nat).

Lemma extend_ok prev st us front : chain_inv prev st us ->
  (extend near segs eps front st = UB /\ ~ Forall small_segment segs) \/ exists b st' us', extend near segs eps front st = Ok (b, st') /\ chain_inv prev st' us' /\ incl us us' /\
   (if b then length us' = S (length us) else st' = st /\ us' = us /\
      (near_sound near -> forall p, end_of front (snd st) = Some p -> dead (snd (fst st)) p)).
Proof.
  destruct st as [[ix dn] pl]. intros (I & Fp & Wk & Pm & Nd & Bd).
  assert (0 < length pl)%nat as Lp by (destruct Wk as [L _]; lia).
  destruct (nth_some pl (if front then 0 else length pl - 1)) as (cur & Ec); [destruct front; lia|].
  unfold extend. rewrite (get_nth _ _ _ Ec). cbn [bind].
  assert (is_pt cur) as Pc by (rewrite Forall_forall in Fp; apply Fp; eapply nth_error_In; eassumption).
  destruct (nearby_ok ix cur (is_pt_fits _ Pc)) as [(-> & NS)|(cands & -> & C1 & C2)].
  { left. split; [reflexivity|]. intros F. apply NS, is_pt_small; assumption. }
  right. cbn [bind].
  destruct (pick_ok dn cur cands) as (r & -> & Hr).
  { intros e He. destruct (C1 e He) as (k & Hk). exact (proj1 I k e Hk). }
  cbn [bind]. destruct r as [e|].
  - destruct Hr as (ep & Ee & Hd & Hn). rewrite (get_nth _ _ _ Ee). cbn [bind].
    destruct (ep_facts _ _ Ee) as (s & Es & Ept). unfold far_point. rewrite (get_nth _ _ _ Es). cbn [bind].
    destruct (drop_ok ix dn e ep Ee I) as (ix' & -> & I'). cbn [bind].
    assert (forall us', (us' = (ep_seg ep, negb (ep_p1 ep)) :: us \/ us' = us ++ [(ep_seg ep, ep_p1 ep)]) ->
      Permutation (ep_seg ep :: dn) (map fst us' ++ prev)) as Pm'.
    { intros us' [->| ->]; cbn [map fst app].
      - apply perm_skip. assumption.
      - rewrite map_app. cbn [map fst]. rewrite <- app_assoc. cbn [app]. apply Permutation_cons_app. assumption. }
    assert (NoDup (ep_seg ep :: dn)) as Nd' by (constructor; assumption).
    assert (forall s, In s (ep_seg ep :: dn) -> (s < length segs)%nat) as Bd'.
    { intros s' [<-|K]; [apply nth_error_Some; congruence|auto]. }
    assert (is_pt (if ep_p1 ep then sp2 s else sp1 s)) as Ip.
    { exists (ep_seg ep), s, (negb (ep_p1 ep)). split; [assumption|]. destruct (ep_p1 ep); reflexivity. }
    destruct front.
    + eexists _, _, ((ep_seg ep, negb (ep_p1 ep)) :: us). split; [reflexivity|]. split; [|split; [apply incl_tl, incl_refl|reflexivity]].
      split; [exact I'|]. split; [constructor; assumption|]. split; [|split; [apply Pm'; left; reflexivity|split; [exact Nd'|exact Bd']]].
      destruct pl as [|c rest]; [cbn in Lp; lia|]. cbn in Ec. injection Ec as ->.
      replace (if ep_p1 ep then sp2 s else sp1 s) with (walk_start s (negb (ep_p1 ep))) by (destruct (ep_p1 ep); reflexivity).
      eapply walks_front; [reflexivity|assumption|assumption|]. rewrite <- Hn, Ept. destruct (ep_p1 ep); reflexivity.
    + eexists _, _, (us ++ [(ep_seg ep, ep_p1 ep)]). split; [reflexivity|]. split; [|split; [apply incl_appl, incl_refl|rewrite app_length; cbn; lia]].
      split; [exact I'|]. split; [|split; [|split; [apply Pm'; right; reflexivity|split; [exact Nd'|exact Bd']]]].
      * apply Forall_app. split; [assumption|]. constructor; [assumption|constructor].
      * replace (if ep_p1 ep then sp2 s else sp1 s) with (walk_end s (ep_p1 ep)) by (destruct (ep_p1 ep); reflexivity).
        eapply walks_back; [eassumption|assumption|assumption|]. rewrite <- Hn, Ept. destruct (ep_p1 ep); reflexivity.
  - exists false, (ix, dn, pl), us. split; [reflexivity|]. split; [exact (conj I (conj Fp (conj Wk (conj Pm (conj Nd Bd)))))|]. split; [apply incl_refl|].
    split; [reflexivity|]. split; [reflexivity|]. intros Hs p Hp. cbn [fst snd] in *. unfold end_of in Hp. rewrite Ec in Hp. injection Hp as <-.
    intros e ep Ee Hd. destruct (near (ep_point ep) cur) eqn:En; [|reflexivity]. exfalso.
    destruct (Hr e ep) as [K|K]; [|assumption|contradiction|congruence].
    eapply C2; [apply (proj2 I); eassumption|]. apply Hs. assumption.
Qed.

Lemma chain_len prev ix dn pl us : chain_inv prev (ix, dn, pl) us -> (length us + length prev <= length segs)%nat.
Proof.
  intros (_ & _ & _ & Pm & Nd & Bd). apply Permutation_length in Pm. rewrite app_length, map_length in Pm. rewrite <- Pm.
  rewrite <- (seq_length (length segs) 0). apply NoDup_incl_length; [assumption|]. intros s Hs. apply in_seq. apply Bd in Hs. lia.
Qed.

Lemma loop_ok prev : forall fuel st us, chain_inv prev st us -> (length segs < fuel + length us)%nat ->
  (extend_loop near segs eps fuel st = UB /\ ~ Forall small_segment segs) \/ exists st' us', extend_loop near segs eps fuel st = Ok st' /\ chain_inv prev st' us' /\ (length us <= length us')%nat /\ incl us us' /\
    (near_sound near -> forall front p, end_of front (snd st') = Some p -> dead (snd (fst st')) p).
Proof.
  induction fuel as [|f IH]; intros st us C L.
  - exfalso. destruct st as [[ix dn] pl]. apply chain_len in C. lia.
  - cbn [extend_loop].
    destruct (extend_ok prev st us true C) as [(-> & NS)|(a & st1 & us1 & -> & C1 & N1 & H1)]; [left; split; [reflexivity|exact NS]|]. cbn [bind].
    destruct (extend_ok prev st1 us1 false C1) as [(-> & NS)|(b & st2 & us2 & -> & C2 & N2 & H2)]; [left; split; [reflexivity|exact NS]|]. cbn [bind].
    assert (length us <= length us1)%nat as L1 by (destruct a; [lia|destruct H1 as (_ & -> & _); lia]).
    assert (length us1 <= length us2)%nat as L2 by (destruct b; [lia|destruct H2 as (_ & -> & _); lia]).
    destruct (a || b) eqn:Eab.
    + destruct (IH st2 us2 C2) as [NS|(st' & us' & E & C' & L' & N' & D)]; [destruct a, b; try discriminate; lia|left; exact NS|].
      right. exists st', us'. repeat apply conj; [assumption|assumption|lia|exact (incl_tran N1 (incl_tran N2 N'))|assumption].
    + apply orb_false_iff in Eab as [-> ->]. destruct H1 as (-> & -> & D1). destruct H2 as (-> & -> & D2).
      right. exists st, us. repeat apply conj; [reflexivity|assumption|lia|apply incl_refl|]. intros Hs [|]; [apply D1|apply D2]; assumption.
Qed.
End Run.

(** ** The main loop *)
Section Main.
Variable near : vec3 -> vec3 -> bool.
Variable segs : list segment.
Hypothesis Hfits : Forall fits_segment segs.
Let eps := make_endpoints 0 segs.

Definition pts_of (cs : list (list vec3 * list (nat * bool))) := map fst cs.
Definition uses_of (cs : list (list vec3 * list (nat * bool))) := map snd cs.

Definition main_inv (br0 : list (list vec3)) (i : nat) (st : sindex * list nat * list (list vec3)) : Prop :=
  let '(ix, dn, br) := st in exists cs outs,
  ix_inv segs ix dn /\ br = br0 ++ outs /\
  Forall2 (handed_out near) (pts_of cs) outs /\ Forall (fun c => walks near segs (fst c) (snd c)) cs /\
  Forall (fun c => snd c <> []) cs /\
  Permutation dn (map fst (concat (uses_of cs))) /\ NoDup dn /\ (forall s, In s dn -> (s < length segs)%nat) /\
  (forall e ep, (e < i)%nat -> nth_error eps e = Some ep -> In (ep_seg ep) dn) /\
  (near_sound near -> forall l1 c l2, cs = l1 ++ c :: l2 ->
     forall front p, end_of front (fst c) = Some p -> dead near segs (map fst (concat (uses_of (l1 ++ [c])))) p).

Lemma end_front a l : end_of true (a :: l) = Some a.
Proof. reflexivity. Qed.

Lemma close_ok pl us : walks near segs pl us -> us <> [] -> exists out, close_polyline near pl = Ok out /\ handed_out near pl out.
Proof.
  intros [L _] Hu. destruct pl as [|a [|b t]]; [discriminate|destruct us; [congruence|cbn in L; lia]|].
  destruct (@exists_last _ (b :: t)) as (m & z & E); [discriminate|]. rewrite E.
  exists (if near a z then a :: m else a :: m ++ [z]). split.
  - unfold close_polyline. cbn [get nth_error of_option bind]. unfold get. cbn [length nth_error].
    rewrite app_length. cbn [length]. replace (S (length m + 1) - 1)%nat with (S (length m)) by lia. cbn [nth_error].
    rewrite nth_error_app2, Nat.sub_diag by lia. cbn [nth_error of_option bind]. destruct (near a z); [|reflexivity].
    rewrite app_comm_cons, removelast_last. reflexivity.
  - exists a, z, m. split; [reflexivity|]. destruct (near a z); auto.
Qed.

Lemma split_last {A} (cs : list A) c0 l1 c l2 : cs ++ [c0] = l1 ++ c :: l2 ->
  (exists l2', cs = l1 ++ c :: l2') \/ (l1 = cs /\ c = c0).
Proof.
  intros E. destruct l2 as [|x l2].
  - apply app_inj_tail in E as [-> ->]. auto.
  - destruct (@exists_last _ (x :: l2)) as (m & z & E2); [discriminate|]. rewrite E2 in E.
    rewrite app_comm_cons, app_assoc in E. apply app_inj_tail in E as [-> ->]. left. eauto.
Qed.

Lemma step_ok br0 i st : (i < length eps)%nat -> main_inv br0 i st ->
  (assemble_step near segs eps i st = UB /\ ~ Forall small_segment segs) \/ exists st', assemble_step near segs eps i st = Ok st' /\ main_inv br0 (S i) st'.
Proof.
  destruct st as [[ix dn] br]. intros Hi (cs & outs & I & Eb & F1 & F2 & F3 & Pm & Nd & Bd & Dn & Mx).
  destruct (nth_some eps i Hi) as (ep & Ee). unfold assemble_step. rewrite (get_nth _ _ _ Ee). cbn [bind].
  destruct (processed (ep_seg ep) dn) eqn:Ep.
  - right. eexists. split; [reflexivity|]. exists cs, outs.
    repeat (split; [first [assumption|exact I]|]). split; [|exact Mx].
    intros e ep' He Ee'. destruct (Nat.eq_dec e i) as [->|N]; [|eapply Dn; [|eassumption]; lia].
    rewrite Ee in Ee'. injection Ee' as <-. apply processed_iff in Ep. assumption.
  - apply processed_false in Ep.
    destruct (ep_facts segs _ _ Ee) as (s & Es & Ept). unfold far_point. rewrite (get_nth _ _ _ Es). cbn [bind].
    destruct (drop_ok segs Hfits ix dn i ep Ee I) as (ix1 & E1 & I1). fold eps in E1. rewrite E1. cbn [bind].
    set (far := if ep_p1 ep then sp2 s else sp1 s).
    assert (chain_inv near segs dn (ix1, ep_seg ep :: dn, [ep_point ep; far]) [(ep_seg ep, ep_p1 ep)]) as C.
    { split; [exact I1|]. split; [|split; [|split; [|split]]].
      - constructor; [exists (ep_seg ep), s, (ep_p1 ep); auto|]. constructor; [|constructor].
        exists (ep_seg ep), s, (negb (ep_p1 ep)). split; [assumption|]. unfold far. destruct (ep_p1 ep); reflexivity.
      - split; [reflexivity|]. intros [|k] n f E; [|destruct k; discriminate]. cbn in E. injection E as <- <-.
        exists s, (ep_point ep), far. split; [assumption|]. split; [reflexivity|]. split; [reflexivity|]. split; left.
        + exact Ept.
        + unfold far, walk_end. reflexivity.
      - apply Permutation_refl.
      - constructor; assumption.
      - intros x [<-|Hx]; [apply nth_error_Some; congruence|auto]. }
    destruct (loop_ok near segs Hfits dn (S (length segs)) _ _ C) as [(E2 & NS)|([[ix2 dn2] pl] & us & E2 & C2 & L2 & N2 & D2)]; [lia|left; fold eps in E2; rewrite E2; split; [reflexivity|exact NS]|].
    right. fold eps in E2. rewrite E2. cbn [bind]. destruct C2 as (I2 & Fp & Wk & Pm2 & Nd2 & Bd2).
    assert (us <> []) as Hu by (intros ->; cbn in L2; lia).
    destruct (close_ok pl us Wk Hu) as (out & -> & Ho). cbn [bind].
    eexists. split; [reflexivity|]. exists (cs ++ [(pl, us)]), (outs ++ [out]).
    assert (Permutation dn2 (map fst (concat (uses_of (cs ++ [(pl, us)]))))) as PmN.
    { unfold uses_of. rewrite map_app, concat_app, map_app. cbn. rewrite app_nil_r.
      rewrite Pm2. rewrite Pm. apply Permutation_app_comm. }
    split; [exact I2|]. split; [rewrite Eb, app_assoc; reflexivity|].
    split; [unfold pts_of; rewrite map_app; apply Forall2_app; [assumption|constructor; [assumption|constructor]]|].
    split; [apply Forall_app; split; [assumption|constructor; [assumption|constructor]]|].
    split; [apply Forall_app; split; [assumption|constructor; [assumption|constructor]]|].
    split; [exact PmN|]. split; [exact Nd2|]. split; [exact Bd2|]. split.
    + intros e ep' He Ee'. apply (Permutation_in _ (Permutation_sym Pm2)). apply in_or_app.
      destruct (Nat.eq_dec e i) as [->|N].
      * rewrite Ee in Ee'. injection Ee' as <-.
        left. apply in_map_iff. exists (ep_seg ep, ep_p1 ep). split; [reflexivity|]. apply N2. left. reflexivity.
      * right. eapply Dn; [|eassumption]. lia.
    + intros Hs l1 c l2 Ec front p Hp. apply split_last in Ec as [(l2' & ->)|[-> ->]].
      * eapply Mx; eauto.
      * intros e ep' Ee' Hn. eapply (D2 Hs front p Hp); [eassumption|]. intros K. apply Hn.
        apply (Permutation_in _ PmN). exact K.
Qed.

Lemma for_up_or {A} (P : Prop) (I : nat -> A -> Prop) body : forall count i s, I i s ->
  (forall j s, (i <= j < i + count)%nat -> I j s -> (body j s = UB /\ P) \/ exists s', body j s = Ok s' /\ I (S j) s') ->
  (for_up count i body s = UB /\ P) \/ exists s', for_up count i body s = Ok s' /\ I (i + count)%nat s'.
Proof.
  induction count as [|c IH]; intros i s Hi H; [right; exists s; rewrite Nat.add_0_r; split; [reflexivity|exact Hi]|]. cbn [for_up].
  destruct (H i s ltac:(lia) Hi) as [(-> & HP)|(s' & -> & Hs)]; [left; split; [reflexivity|exact HP]|]. cbn [bind].
  replace (i + S c)%nat with (S i + c)%nat by lia. apply IH; [exact Hs|]. intros j t Hj. apply H. lia.
Qed.
Lemma assemble_all br0 : (assemble_polylines near segs br0 = UB /\ ~ Forall small_segment segs) \/ exists cs outs,
  assemble_polylines near segs br0 = Ok (br0 ++ outs) /\
  assembled near segs outs (pts_of cs) (uses_of cs) /\
  (near_sound near -> cannot_be_joined near segs (pts_of cs) (uses_of cs)).
Proof.
  unfold assemble_polylines. fold eps. destruct (build_ok segs Hfits) as (ix & E & I). fold eps in E. rewrite E. cbn [bind].
  destruct (for_up_or (~ Forall small_segment segs) (main_inv br0) (assemble_step near segs eps) (length eps) 0 (ix, [], br0)) as [(E2 & NS)|([[ix' dn] br] & E2 & H)].
  - exists [], []. split; [exact I|]. split; [rewrite app_nil_r; reflexivity|].
    repeat (split; [constructor|]). split; [intros s []|]. split; [intros; lia|]. intros _ l1 c l2 K. destruct l1; discriminate.
  - intros i st Hi H. apply step_ok; [lia|assumption].
  - left. rewrite E2. split; [reflexivity|exact NS].
  - right. rewrite E2. cbn [bind]. destruct H as (cs & outs & I' & -> & F1 & F2 & F3 & Pm & Nd & Bd & Dn & Mx).
    exists cs, outs. split; [reflexivity|]. split; [split; [|split; [|split]]|].
    + rewrite <- Pm. apply NoDup_Permutation; [assumption|apply seq_NoDup|]. intros s. rewrite in_seq. split.
      * intros Hs. apply Bd in Hs. lia.
      * intros [_ Hs]. destruct (nth_some segs s) as (sg & Es); [lia|].
        destruct (endpoints_all segs 0 s sg true Es) as (e & Ee). fold eps in Ee. apply (Dn e _) in Ee; [exact Ee|].
        cbn. apply nth_error_Some. congruence.
    + assumption.
    + clear - F2. unfold pts_of, uses_of. induction F2; constructor; assumption.
    + clear - F3. unfold uses_of. induction F3; constructor; assumption.
    + intros Hs i j p u b n sg q Hij Hp Hu Hin Hsg Hq d.
      assert (exists c, nth_error cs i = Some c /\ fst c = p) as (c & Ec & Ecp).
      { unfold pts_of in Hp. rewrite nth_error_map in Hp. destruct (nth_error cs i); [|discriminate]. cbn in Hp. injection Hp as <-. eauto. }
      apply nth_error_split in Ec as (l1 & l2 & Ecs & Ll). subst cs p.
      assert (In u (uses_of l2)) as Hu2.
      { unfold uses_of in *. rewrite map_app in Hu. rewrite nth_error_app2 in Hu by (rewrite map_length; lia).
        rewrite map_length in Hu. cbn [map] in Hu. destruct (j - length l1)%nat eqn:Ej; [lia|]. cbn in Hu. apply nth_error_In in Hu. assumption. }
      assert (~ In n (map fst (concat (uses_of (l1 ++ [c]))))) as Hn.
      { intros K. assert (NoDup (map fst (concat (uses_of (l1 ++ c :: l2))))) as ND by (rewrite <- Pm; assumption).
        replace (l1 ++ c :: l2) with ((l1 ++ [c]) ++ l2) in ND by (rewrite <- app_assoc; reflexivity).
        unfold uses_of in ND, K, Hu2. rewrite map_app, concat_app, map_app in ND.
        assert (In n (map fst (concat (map snd l2)))) as K2.
        { apply in_map_iff. exists (n, b). split; [reflexivity|]. apply in_concat. eauto. }
        clear - ND K K2. revert ND K. generalize (map fst (concat (map snd (l1 ++ [c])))). intros l. induction l as [|x t IH]; intros ND K; [contradiction|].
        cbn [app] in ND. inversion ND; subst. destruct K as [->|K]; [apply H1, in_or_app; right; assumption|auto]. }
      assert (exists e bb, nth_error eps e = Some (EP q n bb)) as (e & bb & Ee).
      { destruct Hq as [->| ->]; [destruct (endpoints_all segs 0 n sg true Hsg) as (e & Ee)|destruct (endpoints_all segs 0 n sg false Hsg) as (e & Ee)]; eauto. }
      assert (forall front p, end_of front (fst c) = Some p -> near q p = false) as K.
      { intros front p Hp'. exact (Mx Hs l1 c l2 eq_refl front p Hp' e _ Ee Hn). }
      assert (fst c <> []) as Nn.
      { intros E0. rewrite Forall_forall in F2. destruct (F2 c) as [Lc _]; [apply in_or_app; right; left; reflexivity|]. rewrite E0 in Lc. discriminate. }
      split.
      * apply (K true). destruct (fst c); [congruence|reflexivity].
      * apply (K false). destruct (@exists_last _ (fst c) Nn) as (m & z & Em). rewrite Em. unfold end_of.
        rewrite app_length. cbn [length]. rewrite nth_error_app2 by lia. replace (length m + 1 - 1 - length m)%nat with 0%nat by lia.
        rewrite last_last. reflexivity.
Qed.
End Main.

Lemma all_fit segs : Forall small_segment segs -> Forall fits_segment segs.
Proof. apply Forall_impl. intros s (A & B). split; apply small_fits3; assumption. Qed.
Lemma assemble_once near segs br0 : Forall small_segment segs -> exists outs pts uses,
  assemble_polylines near segs br0 = Ok (br0 ++ outs) /\ assembled near segs outs pts uses.
Proof. intros H. destruct (assemble_all near segs (all_fit _ H) br0) as [(_ & N)|(cs & outs & E & A & _)]; [contradiction|eauto]. Qed.
Lemma assemble_maximal near segs br0 : Forall small_segment segs -> near_sound near -> exists outs pts uses,
  assemble_polylines near segs br0 = Ok (br0 ++ outs) /\ assembled near segs outs pts uses /\ cannot_be_joined near segs pts uses.
Proof. intros H Hs. destruct (assemble_all near segs (all_fit _ H) br0) as [(_ & N)|(cs & outs & E & A & M)]; [contradiction|eauto 8]. Qed.

Lemma near_exact_sound : near_sound near_exact.
Proof.
  intros p q H. apply Qcltb_iff in H. unfold v3distSq, v3sq, v3sub in H. cbn [vx vy vz] in H.
  assert (forall a, a * a < qc 1 4503599627370496 * qc 1 4503599627370496 -> Qcabs a < qc 1 4503599627370496) as K.
  { intros a Ha. assert (0 < qc 1 4503599627370496) as Hpos by reflexivity. destruct (Qcabs_cases a) as [[S E]|[S E]]; rewrite E; apply (sq_lt_inv _ _ Hpos).
    - assumption.
    - replace (- a * - a) with (a * a) by ring. assumption. }
  assert (forall a, 0 <= a * a) as N by (intros a; apply sq_nonneg).
  pose proof (N (vx p - vx q)). pose proof (N (vy p - vy q)). pose proof (N (vz p - vz q)).
  split; [|split]; apply K; qc_lra.
Qed.

(** ** Ordinary coordinates overflow the quantisation *)
Lemma cell_of_big c : qc 1 1000000 <= Qcabs c -> cell_of c = UB.
Proof.
  intros H. unfold cell_of. fold (cell c). destruct (cell_bounds c) as [B1 B2]. unfold W in *. apply int_op_ub.
  destruct (Qcabs_cases c) as [[P E]|[P E]]; rewrite E in H.
  - right. assert (2 ^ 31 < cell c + 1)%Z; [|lia]. apply Qc_of_Z_lt. rewrite Qc_of_Z_add. change (2 ^ 31)%Z with 2147483648%Z. zlra.
  - left. apply Qc_of_Z_lt. change (- 2 ^ 31)%Z with (-2147483648)%Z. zlra.
Qed.

Lemma cell_of_cases c : cell_of c = UB \/ exists z, cell_of c = Ok z.
Proof. unfold cell_of, int_op. destruct (_ && _); eauto. Qed.
Lemma key_of_big p : big3 p -> key_of p = UB.
Proof.
  intros H. unfold key_of. destruct (cell_of_cases (vx p)) as [E|(x & E)]; rewrite E; [reflexivity|]. cbn [bind].
  destruct (cell_of_cases (vy p)) as [E2|(y & E2)]; rewrite E2; [reflexivity|]. cbn [bind].
  destruct (cell_of_cases (vz p)) as [E3|(z & E3)]; rewrite E3; [reflexivity|]. exfalso.
  destruct H as [H|[H|H]]; apply cell_of_big in H; congruence.
Qed.
Lemma key_of_cases p : key_of p = UB \/ exists k, key_of p = Ok k.
Proof.
  unfold key_of. destruct (cell_of_cases (vx p)) as [E|(x & E)]; rewrite E; [auto|]. cbn [bind].
  destruct (cell_of_cases (vy p)) as [E2|(y & E2)]; rewrite E2; [auto|]. cbn [bind].
  destruct (cell_of_cases (vz p)) as [E3|(z & E3)]; rewrite E3; [auto|]. cbn [bind]. eauto.
Qed.

Lemma build_big eps : forall count i ix e ep, (i <= e < i + count)%nat -> (i + count <= length eps)%nat ->
  nth_error eps e = Some ep -> big3 (ep_point ep) -> for_up count i (fun e ix => add_to_index eps ix e) ix = UB.
Proof.
  induction count as [|c IH]; intros i ix e ep Hi Hl He Hb; [lia|]. cbn [for_up].
  destruct (nth_some eps i) as (ep' & E'); [lia|]. unfold add_to_index at 1. rewrite (get_nth _ _ _ E'). cbn [bind].
  destruct (key_of_cases (ep_point ep')) as [K|(k & K)]; rewrite K; [reflexivity|]. cbn [bind].
  apply (IH _ _ e ep); [|lia|assumption|assumption].
  destruct (Nat.eq_dec e i) as [->|N]; [|lia]. rewrite He in E'. injection E' as <-. rewrite (key_of_big _ Hb) in K. discriminate.
Qed.

Lemma assemble_big near segs br0 s p : In s segs -> p = sp1 s \/ p = sp2 s -> big3 p ->
  build_index (make_endpoints 0 segs) = UB /\ assemble_polylines near segs br0 = UB.
Proof.
  intros Hs Hp Hb. assert (build_index (make_endpoints 0 segs) = UB) as E.
  { apply In_nth_error in Hs as (n & Hn).
    assert (exists e ep, nth_error (make_endpoints 0 segs) e = Some ep /\ ep_point ep = p) as (e & ep & Ee & Ep).
    { destruct Hp as [->| ->]; [destruct (endpoints_all segs 0 n s true Hn) as (e & Ee)|destruct (endpoints_all segs 0 n s false Hn) as (e & Ee)]; eauto. }
    unfold build_index. apply (build_big _ _ _ _ e ep); [|lia|assumption|rewrite Ep; assumption].
    assert (e < length (make_endpoints 0 segs))%nat; [apply nth_error_Some; congruence|lia]. }
  split; [assumption|]. unfold assemble_polylines. rewrite E. reflexivity.
Qed.

(** ** Whatever the coordinates *)
Lemma cell_of_ok c z : cell_of c = Ok z -> fits c.
Proof.
  unfold cell_of. fold (cell c). intros H. unfold fits. destruct (Z.lt_ge_cases (cell c) (- 2 ^ 31)); [rewrite int_op_ub in H by lia; discriminate|].
  destruct (Z.lt_ge_cases (cell c) (2 ^ 31)); [lia|rewrite int_op_ub in H by lia; discriminate].
Qed.
Lemma key_of_ok p k : key_of p = Ok k -> fits3 p.
Proof.
  unfold key_of. intros H. destruct (cell_of_cases (vx p)) as [E|(x & E)]; rewrite E in H; [discriminate|]. cbn [bind] in H.
  destruct (cell_of_cases (vy p)) as [E2|(y & E2)]; rewrite E2 in H; [discriminate|]. cbn [bind] in H.
  destruct (cell_of_cases (vz p)) as [E3|(z & E3)]; rewrite E3 in H; [discriminate|]. repeat split; eapply cell_of_ok; eassumption.
Qed.
Lemma build_fits eps : forall count i ix ix', (i + count <= length eps)%nat -> for_up count i (fun e ix => add_to_index eps ix e) ix = Ok ix' ->
  forall e ep, (i <= e < i + count)%nat -> nth_error eps e = Some ep -> fits3 (ep_point ep).
Proof.
  induction count as [|c IH]; intros i ix ix' Hl E e ep He Hep; [lia|]. cbn [for_up] in E. unfold add_to_index at 1 in E.
  destruct (nth_some eps i) as (ep' & E'); [lia|]. rewrite (get_nth _ _ _ E') in E. cbn [bind] in E.
  destruct (key_of_cases (ep_point ep')) as [K|(k & K)]; rewrite K in E; [discriminate|]. cbn [bind] in E.
  destruct (Nat.eq_dec e i) as [->|N]; [rewrite Hep in E'; injection E' as <-; eapply key_of_ok; exact K|].
  eapply IH; [|exact E| |exact Hep]; lia.
Qed.
Lemma build_cases eps : forall count i ix, (i + count <= length eps)%nat ->
  for_up count i (fun e ix => add_to_index eps ix e) ix = UB \/ exists ix', for_up count i (fun e ix => add_to_index eps ix e) ix = Ok ix'.
Proof.
  induction count as [|c IH]; intros i ix Hl; [right; eexists; reflexivity|]. cbn [for_up]. unfold add_to_index at 1 3.
  destruct (nth_some eps i) as (ep' & E'); [lia|]. rewrite (get_nth _ _ _ E'). cbn [bind].
  destruct (key_of_cases (ep_point ep')) as [K|(k & K)]; rewrite K; [left; reflexivity|]. cbn [bind]. apply IH. lia.
Qed.
Lemma assemble_any near segs br0 : assemble_polylines near segs br0 = UB \/ exists outs pts uses,
  assemble_polylines near segs br0 = Ok (br0 ++ outs) /\ assembled near segs outs pts uses /\ (near_sound near -> cannot_be_joined near segs pts uses).
Proof.
  destruct (build_cases (make_endpoints 0 segs) (length (make_endpoints 0 segs)) 0 [] ltac:(lia)) as [E|(ix & E)].
  - left. unfold assemble_polylines, build_index. rewrite E. reflexivity.
  - assert (Forall fits_segment segs) as F.
    { apply Forall_forall. intros s Hs. apply In_nth_error in Hs as (n & Hn). pose proof (build_fits (make_endpoints 0 segs) _ 0 [] ix (le_n _) E) as B.
      destruct (endpoints_all segs 0 n s true Hn) as (e1 & E1). destruct (endpoints_all segs 0 n s false Hn) as (e2 & E2).
      split; [apply (B e1 _ ltac:(split; [lia|apply nth_error_Some; congruence]) E1)|apply (B e2 _ ltac:(split; [lia|apply nth_error_Some; congruence]) E2)]. }
    destruct (assemble_all near segs F br0) as [(U & _)|(cs & outs & H)]; [left; exact U|right; eauto].
Qed.
Lemma assemble_returns near segs br0 r : near_sound near -> assemble_polylines near segs br0 = Ok r -> exists outs pts uses,
  r = br0 ++ outs /\ assembled near segs outs pts uses /\ cannot_be_joined near segs pts uses.
Proof.
  intros N H. destruct (assemble_any near segs br0) as [U|(outs & pts & uses & E & A & M)]; [congruence|]. exists outs, pts, uses. rewrite H in E. injection E as ->. auto.
Qed.
Lemma assemble_returns_once near segs br0 r : assemble_polylines near segs br0 = Ok r -> exists outs pts uses, r = br0 ++ outs /\ assembled near segs outs pts uses.
Proof.
  intros H. destruct (assemble_any near segs br0) as [U|(outs & pts & uses & E & A & M)]; [congruence|]. exists outs, pts, uses. rewrite H in E. injection E as ->. auto.
Qed.
Lemma assemble_no_throw near segs br0 e : assemble_polylines near segs br0 <> Throw e.
Proof. destruct (assemble_any near segs br0) as [U|(outs & pts & uses & E & A & M)]; congruence. Qed.
