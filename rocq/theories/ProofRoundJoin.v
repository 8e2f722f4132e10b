(** Assembling polylines in double arithmetic. The lemmas from [dnearby_ok] on are those
    of ProofPolyline.v over rounded cells. *)
From Coq Require Import List ZArith QArith Qcanon Qround Permutation Bool Lia Lqa.
From Verif Require Import Base BaseFacts LoopFacts ModelVec ModelMemView ModelKd ModelPolyline ModelRoundKd ModelRoundCell ModelRoundJoin SpecPolyline SpecKd SpecRound SpecRoundKd SpecRoundCell SpecRoundJoin ProofPolyline ProofKd ProofRound ProofRoundDouble ProofRoundHull ProofRoundFull ProofRoundKd ProofRoundPolygon ProofRoundCell.
Import ListNotations.
Open Scope Qc_scope.

Definition fcell (c : Qc) : Z := qc_floor (unbounded (c / PL_EPS + qc 1 2)).
Definition dfits (c : Qc) : Prop := dbl c /\ (- 2 ^ 31 <= fcell c < 2 ^ 31)%Z.
Definition dfits3 (p : vec3) : Prop := dfits (vx p) /\ dfits (vy p) /\ dfits (vz p).
Definition dfits_segment (s : segment) : Prop := dfits3 (sp1 s) /\ dfits3 (sp2 s).
Definition fkey3 (p : vec3) : pkey := (fcell (vx p), fcell (vy p), fcell (vz p)).

Lemma floor_ge n x : ofZ n <= x -> (n <= qc_floor x)%Z.
Proof. intros H. destruct (floor_bounds x) as (_ & B). change Qc_of_Z with ofZ in B. assert (n < qc_floor x + 1)%Z; [|lia]. apply ofZ_lt_inv. rewrite ofZ_add. change (ofZ 1) with 1. qc_lra. Qed.
Lemma floor_lt n x : x < ofZ n -> (qc_floor x < n)%Z.
Proof. intros H. destruct (floor_bounds x) as (B & _). change Qc_of_Z with ofZ in B. apply ofZ_lt_inv. qc_lra. Qed.
Lemma fcell_ge n c : (Z.abs n <= 2 ^ 53)%Z -> ofZ n <= c * W + qc 1 2 -> (n <= fcell c)%Z.
Proof. intros N H. apply floor_ge. rewrite div_eps, <- (unbounded_id _ (int_dbl n N)). apply unbounded_mono, H. Qed.
Lemma fcell_lt n c : (Z.abs n <= 2 ^ 40)%Z -> c * W + qc 1 2 <= ofZ n + qc 1 2 -> (fcell c < n + 1)%Z.
Proof.
  intros N H. apply floor_lt. rewrite div_eps. apply unbounded_mono in H. rewrite (unbounded_id _ (below_dbl n N)) in H. rewrite ofZ_add. change (ofZ 1) with 1.
  assert (qc 1 2 < 1) by reflexivity. qc_lra.
Qed.
Lemma fcell_small c : small c -> (- LIM <= fcell c <= LIM)%Z.
Proof.
  intros H. unfold small in H. pose proof (Qcle_Qcabs c). pose proof (Qcopp_Qcabs c).
  assert (ofZ 2147483646 = qc 2147483646 4503599627370496 * W) as E by (apply Qc_is_canon; reflexivity). assert (0 < W) as P by reflexivity. assert (0 < qc 1 2) as Q by reflexivity.
  assert (c * W <= ofZ 2147483646) as U by (rewrite E; revert H H0 H1 P; generalize (Qcabs c), W, (qc 2147483646 4503599627370496); intros; qc_nra).
  assert (- ofZ 2147483646 <= c * W) as L by (rewrite E; revert H H0 H1 P; generalize (Qcabs c), W, (qc 2147483646 4503599627370496); intros; qc_nra).
  unfold LIM. split.
  - apply fcell_ge; [lia|]. change (ofZ (- (2147483646))) with (- ofZ 2147483646). qc_lra.
  - assert (fcell c < 2147483646 + 1)%Z; [|lia]. apply fcell_lt; [lia|]. qc_lra.
Qed.
Lemma dfits_one c : dfits c -> - (1) <= c /\ c <= 1.
Proof.
  intros (_ & A & B). assert (0 < W) as P by reflexivity. assert (W = ofZ (2 ^ 52)) as EW by reflexivity. assert (0 < qc 1 2) as Q by reflexivity.
  split; apply Qcnot_lt_le; intros L.
  - assert (fcell c < - 2 ^ 40 + 1)%Z; [|lia]. apply fcell_lt; [lia|]. assert (- W <= ofZ (- 2 ^ 40)) by (rewrite EW; discriminate).
    assert (c * W <= - W) by (revert L P; generalize W; intros; qc_nra). qc_lra.
  - assert (2 ^ 52 <= fcell c)%Z; [|lia]. apply fcell_ge; [lia|]. rewrite <- EW. assert (W <= c * W) by (revert L P; generalize W; intros; qc_nra). qc_lra.
Qed.
Lemma dtrunc c : - (1) <= c -> c <= 1 -> exists z, int_op (qc_trunc c) = Ok z.
Proof.
  intros H1 H2. exists (qc_trunc c). apply int_op_ok. unfold qc_trunc. destruct (Qcltb_spec c 0) as [L|L].
  - assert (0 <= qc_floor (- c))%Z by (apply floor_ge; change (ofZ 0) with 0; qc_lra). assert (qc_floor (- c) < 2)%Z; [apply floor_lt|lia]. change (ofZ 2) with (1 + 1). qc_lra.
  - assert (0 <= qc_floor c)%Z by (apply floor_ge; change (ofZ 0) with 0; qc_lra). assert (qc_floor c < 2)%Z; [apply floor_lt|lia]. change (ofZ 2) with (1 + 1). qc_lra.
Qed.
Lemma draw_key_fits p : dfits3 p -> exists k, raw_key (vx p) (vy p) (vz p) = Ok k.
Proof.
  intros (H1 & H2 & H3). unfold raw_key.
  destruct (dtrunc _ (proj1 (dfits_one _ H1)) (proj2 (dfits_one _ H1))) as [x ->]. destruct (dtrunc _ (proj1 (dfits_one _ H2)) (proj2 (dfits_one _ H2))) as [y ->].
  destruct (dtrunc _ (proj1 (dfits_one _ H3)) (proj2 (dfits_one _ H3))) as [z ->]. cbn [bind]. eauto.
Qed.
Lemma round_none x : round_full x = None -> p2 1024 <= Qcabs (unbounded x).
Proof. unfold round_full. destruct (Qcltb _ _) eqn:E; [discriminate|]. intros _. qcb. exact E. Qed.
Lemma huge_1024 : ofZ (2 ^ 41) <= p2 1024.
Proof. rewrite (ofZ_p2 41) by lia. apply p2_mono. lia. Qed.

Section Doubles.
Variable fl : nat -> Qc -> option Qc.
Hypothesis FL : in_all_doubles fl.

Lemma fcell_eq c : dbl c -> fcell_of fl c = int_op (fcell c).
Proof.
  intros D. unfold fcell_of. rewrite (proj1 FL). pose proof huge_1024 as HH. assert (0 < qc 1 2) as Q by reflexivity. assert (qc 1 2 < 1) as Q1 by reflexivity.
  destruct (round_full (c / PL_EPS)) as [s|] eqn:E.
  - destruct (full_some _ _ E) as (E1 & _). rewrite (unbounded_id _ (scaled_dbl c D)) in E1. rewrite E1. rewrite (proj1 FL).
    destruct (round_full (c / PL_EPS + qc 1 2)) as [t|] eqn:ET; [destruct (full_some _ _ ET) as (-> & _); reflexivity|].
    apply round_none in ET. symmetry. apply int_op_ub. unfold fcell. revert ET. apply Qcabs_case; intros S ET.
    + right. assert (2 ^ 41 <= qc_floor (unbounded (c / PL_EPS + qc 1 2)))%Z; [apply floor_ge; qc_lra|lia].
    + left. assert (qc_floor (unbounded (c / PL_EPS + qc 1 2)) < - 2 ^ 40)%Z; [|lia]. apply floor_lt. assert (- ofZ (2 ^ 41) < ofZ (- 2 ^ 40)) by reflexivity. qc_lra.
  - apply round_none in E. rewrite (unbounded_id _ (scaled_dbl c D)) in E. symmetry. apply int_op_ub. rewrite div_eps in E. revert E. apply Qcabs_case; intros S E.
    + right. assert (2 ^ 41 <= fcell c)%Z; [apply fcell_ge; [lia|qc_lra]|lia].
    + left. assert (fcell c < - 2 ^ 40 + 1)%Z; [|lia]. apply fcell_lt; [lia|]. assert (- ofZ (2 ^ 41) < ofZ (- 2 ^ 40)) by reflexivity. qc_lra.
Qed.
Lemma fcell_of_fits c : dfits c -> fcell_of fl c = Ok (fcell c).
Proof. intros (D & H). rewrite (fcell_eq c D). apply int_op_ok, H. Qed.
Lemma fkey_of_fits p : dfits3 p -> fkey_of fl p = Ok (fkey3 p).
Proof. intros (H1 & H2 & H3). unfold fkey_of. rewrite !fcell_of_fits by assumption. reflexivity. Qed.
Lemma dcell_near a b : dfits a -> dfits b -> Qcabs (a - b) < qc 1 4503599627370496 -> (-1 <= fcell a - fcell b <= 1)%Z.
Proof. intros A B H. exact (fcell_near fl FL a b _ _ (proj1 A) (proj1 B) H (fcell_of_fits a A) (fcell_of_fits b B)). Qed.

Lemma dnearby_ok ix p : dfits3 p -> (ffind_nearby_endpoints fl ix p = UB /\ ~ small3 p) \/ exists l, ffind_nearby_endpoints fl ix p = Ok l /\
  (forall e, In e l -> exists k, In e (ix_at k ix)) /\
  (forall q e, dfits3 q -> In e (ix_at (fkey3 q) ix) ->
    close_points q p -> In e l).
Proof.
  intros Hs. unfold ffind_nearby_endpoints. rewrite (fkey_of_fits p Hs). cbn [bind fkey3].
  set (f := fun d : pkey => let '(dx, dy, dz) := d in _).
  set (g := fun d : pkey => let '(dx, dy, dz) := d in ix_at (fcell (vx p) + dx, fcell (vy p) + dy, fcell (vz p) + dz)%Z ix).
  destruct (mapM_or f g offsets) as [E|E].
  { intros [[dx dy] dz]. unfold f, g. destruct (int_op_cases (fcell (vx p) + dx)) as [->| ->]; [left; reflexivity|]. cbn [bind].
    destruct (int_op_cases (fcell (vy p) + dy)) as [->| ->]; [left; reflexivity|]. cbn [bind].
    destruct (int_op_cases (fcell (vz p) + dz)) as [->| ->]; [left; reflexivity|right; reflexivity]. }
  { left. rewrite E. split; [reflexivity|]. intros (S1 & S2 & S3). apply fcell_small in S1, S2, S3. unfold LIM in *.
    rewrite (mapM_all f g) in E; [discriminate|]. intros [[dx dy] dz] H. apply offsets_iff in H. unfold f, g. rewrite !int_op_ok by lia. reflexivity. }
  right. rewrite E. subst f g. cbn [bind]. eexists. split; [reflexivity|]. split.
  - intros e H. apply in_concat in H as (l & Hl & He). apply in_map_iff in Hl as ([[dx dy] dz] & El & _). subst l. eauto.
  - intros q e Hq He Hd. apply in_concat. exists (ix_at (fkey3 q) ix). split; [|assumption].
    apply in_map_iff. exists (fcell (vx q) - fcell (vx p), fcell (vy q) - fcell (vy p), fcell (vz q) - fcell (vz p))%Z. split.
    + unfold fkey3. f_equal. f_equal; [f_equal|]; lia.
    + destruct Hd as (HX & HY & HZ). destruct Hq as (F1 & F2 & F3). destruct Hs as (G1 & G2 & G3).
      apply offsets_iff. split; [apply dcell_near; assumption|]. split; apply dcell_near; assumption.
Qed.

Section Run.
Variable near : vec3 -> vec3 -> bool.
Variable segs : list segment.
Hypothesis Hfits : Forall dfits_segment segs.
Let eps := make_endpoints 0 segs.

Lemma ep_facts e ep : nth_error eps e = Some ep ->
  exists s, nth_error segs (ep_seg ep) = Some s /\ ep_point ep = pt_of s (ep_p1 ep).
Proof. intros H. apply endpoints_inv in H as (n & s & E1 & E2 & E3). cbn in E1. subst n. eauto. Qed.
Lemma pt_fits n s b : nth_error segs n = Some s -> dfits3 (pt_of s b).
Proof.
  intros H. apply nth_error_In in H. rewrite Forall_forall in Hfits. destruct (Hfits s H). destruct b; assumption.
Qed.
Lemma ep_fits e ep : nth_error eps e = Some ep -> dfits3 (ep_point ep).
Proof. intros H. apply ep_facts in H as (s & H & ->). eapply pt_fits; eassumption. Qed.

(** the index knows every endpoint of an unused segment *)
Definition ix_inv (ix : sindex) (dn : list nat) : Prop :=
  (forall k e, In e (ix_at k ix) -> (e < length eps)%nat) /\
  (forall e ep, nth_error eps e = Some ep -> ~ In (ep_seg ep) dn -> In e (ix_at (fkey3 (ep_point ep)) ix)).

Lemma add_ok ix e : (e < length eps)%nat -> exists ix', fadd_to_index fl eps ix e = Ok ix' /\
  (forall k x, In x (ix_at k ix') -> In x (ix_at k ix) \/ x = e) /\
  (forall k x, In x (ix_at k ix) -> In x (ix_at k ix')) /\
  (forall ep, nth_error eps e = Some ep -> In e (ix_at (fkey3 (ep_point ep)) ix')).
Proof.
  intros H. destruct (nth_some eps e H) as (ep & E). unfold fadd_to_index. rewrite (get_nth _ _ _ E). cbn [bind].
  rewrite (fkey_of_fits _ (ep_fits _ _ E)). cbn [bind]. eexists. split; [reflexivity|]. split; [|split].
  - intros k x Hx. destruct (pkey_dec k (fkey3 (ep_point ep))) as [->|N].
    + rewrite ix_at_put_same in Hx. apply in_app_or in Hx as [Hx|[Hx|[]]]; auto.
    + rewrite ix_at_put_other in Hx by assumption. auto.
  - intros k x Hx. destruct (pkey_dec k (fkey3 (ep_point ep))) as [->|N].
    + rewrite ix_at_put_same. apply in_or_app. auto.
    + rewrite ix_at_put_other by assumption. auto.
  - intros ep' E'. rewrite E in E'. injection E' as <-. rewrite ix_at_put_same. apply in_or_app. right. left. reflexivity.
Qed.

Lemma build_ok : exists ix, fbuild_index fl eps = Ok ix /\ ix_inv ix [].
Proof.
  unfold fbuild_index.
  destruct (for_up_inv (fun i ix => (forall k e, In e (ix_at k ix) -> (e < length eps)%nat) /\
     (forall e ep, (e < i)%nat -> nth_error eps e = Some ep -> In e (ix_at (fkey3 (ep_point ep)) ix)))
     (fun e ix => fadd_to_index fl eps ix e) (length eps) 0 []) as (ix & E & H1 & H2).
  - split; [intros k e []|intros; lia].
  - intros i ix _ Hi [H1 H2]. destruct (add_ok ix i Hi) as (ix' & E & A1 & A2 & A3). exists ix'. split; [assumption|]. split.
    + intros k e He. apply A1 in He as [He|He]; [eauto|subst; assumption].
    + intros e ep He Hep. destruct (Nat.eq_dec e i) as [->|N]; [apply A3; assumption|]. apply A2. apply H2; [lia|assumption].
  - exists ix. split; [assumption|]. split; [assumption|]. intros e ep He _. apply H2; [|assumption]. apply nth_error_Some. congruence.
Qed.

Lemma remove_ok ix e : (e < length eps)%nat -> exists ix', remove_from_index eps ix e = Ok ix' /\
  forall k x, (In x (ix_at k ix') -> In x (ix_at k ix)) /\ (In x (ix_at k ix) -> x <> e -> In x (ix_at k ix')).
Proof.
  intros H. destruct (nth_some eps e H) as (ep & E). unfold remove_from_index. rewrite (get_nth _ _ _ E). cbn [bind].
  destruct (draw_key_fits _ (ep_fits _ _ E)) as (rk & ->). cbn [bind].
  set (b := filter (fun e' => negb (Nat.eqb e e')) (ix_at rk ix)).
  assert (forall x, In x b <-> In x (ix_at rk ix) /\ x <> e) as Hb.
  { intros x. unfold b. rewrite filter_In, negb_true_iff, Nat.eqb_neq. intuition congruence. }
  assert (forall k x ix', (ix_at rk ix' = b) -> (forall k', k' <> rk -> ix_at k' ix' = ix_at k' ix) ->
    (In x (ix_at k ix') -> In x (ix_at k ix)) /\ (In x (ix_at k ix) -> x <> e -> In x (ix_at k ix'))) as K.
  { intros k x ix' E1 E2. destruct (pkey_dec k rk) as [->|N]; [rewrite E1; rewrite Hb; tauto|rewrite E2 by assumption; tauto]. }
  destruct b as [|b0 bt] eqn:Eb.
  - eexists. split; [reflexivity|]. intros k x. apply K; [apply ix_at_erase_same|intros; apply ix_at_erase_other; assumption].
  - eexists. split; [reflexivity|]. intros k x. apply K; [apply ix_at_put_same|intros; apply ix_at_put_other; assumption].
Qed.

Lemma drop_ok ix dn e ep : nth_error eps e = Some ep -> ix_inv ix dn ->
  exists ix', drop_endpoints eps ix e = Ok ix' /\ ix_inv ix' (ep_seg ep :: dn).
Proof.
  intros E [I1 I2]. assert (e < length eps)%nat as He by (apply nth_error_Some; congruence).
  unfold drop_endpoints. rewrite (get_nth _ _ _ E). cbn [bind].
  destruct (remove_ok ix e He) as (ix1 & -> & R1). cbn [bind].
  assert (ix_inv ix1 (ep_seg ep :: dn)) as [J1 J2].
  { split; [intros k x Hx; apply (I1 k), R1; assumption|]. intros x xp Ex Hx.
    apply R1; [apply I2; [assumption|intros K; apply Hx; right; assumption]|].
    intros ->. rewrite E in Ex. injection Ex as <-. apply Hx. left. reflexivity. }
  destruct (opposite_from eps 0 ep) as [o|] eqn:Eo.
  - apply opposite_inv in Eo as (oe & E1 & _ & E2). rewrite Nat.sub_0_r in E1.
    destruct (remove_ok ix1 o) as (ix2 & -> & R2); [apply nth_error_Some; congruence|].
    exists ix2. split; [reflexivity|]. split; [intros k x Hx; apply (J1 k), R2; assumption|]. intros x xp Ex Hx.
    apply R2; [apply J2; assumption|]. intros ->. rewrite E1 in Ex. injection Ex as <-. apply Hx. left. congruence.
  - exists ix1. split; [reflexivity|]. split; assumption.
Qed.

Lemma processed_iff s dn : processed s dn = true <-> In s dn.
Proof.
  unfold processed. rewrite existsb_exists. split.
  - intros (x & H & E). apply Nat.eqb_eq in E. subst. assumption.
  - intros H. exists s. split; [assumption|apply Nat.eqb_refl].
Qed.
Lemma processed_false s dn : processed s dn = false <-> ~ In s dn.
Proof. rewrite <- processed_iff. destruct (processed s dn); split; congruence. Qed.

Lemma pick_ok dn cur cands : (forall e, In e cands -> (e < length eps)%nat) ->
  exists r, pick near eps cands dn cur = Ok r /\
  match r with
  | Some e => exists ep, nth_error eps e = Some ep /\ ~ In (ep_seg ep) dn /\ near (ep_point ep) cur = true
  | None => forall e ep, In e cands -> nth_error eps e = Some ep -> In (ep_seg ep) dn \/ near (ep_point ep) cur = false
  end.
Proof.
  induction cands as [|e t IH]; intros H.
  - exists None. split; [reflexivity|]. intros e ep [].
  - destruct (nth_some eps e) as (ep & E); [apply H; left; reflexivity|].
    cbn [pick]. rewrite (get_nth _ _ _ E). cbn [bind].
    destruct IH as (r & Er & Hr); [intros; apply H; right; assumption|].
    destruct (processed (ep_seg ep) dn) eqn:Ep.
    + exists r. split; [assumption|]. destruct r; [assumption|]. intros x xp [->|Hx] Ex; [|eauto].
      rewrite E in Ex. injection Ex as <-. left. apply processed_iff. assumption.
    + destruct (near (ep_point ep) cur) eqn:En.
      * exists (Some e). split; [reflexivity|]. exists ep. split; [assumption|]. split; [apply processed_false|]; assumption.
      * exists r. split; [assumption|]. destruct r; [assumption|]. intros x xp [->|Hx] Ex; [|eauto].
        rewrite E in Ex. injection Ex as <-. right. assumption.
Qed.

(** ** Extending a polyline *)
Definition is_pt (p : vec3) : Prop := exists n s b, nth_error segs n = Some s /\ p = pt_of s b.
Lemma is_pt_fits p : is_pt p -> dfits3 p.
Proof. intros (n & s & b & H & ->). eapply pt_fits; eassumption. Qed.
Lemma is_pt_small p : Forall small_segment segs -> is_pt p -> small3 p.
Proof. intros F (n & s & b & H & ->). rewrite Forall_forall in F. destruct (F s (nth_error_In _ _ H)). destruct b; assumption. Qed.

Definition chain_inv (prev : list nat) (st : pstate) (us : list (nat * bool)) : Prop :=
  let '(ix, dn, pl) := st in
  ix_inv ix dn /\ Forall is_pt pl /\ walks near segs pl us /\
  Permutation dn (map fst us ++ prev) /\ NoDup dn /\ (forall s, In s dn -> (s < length segs)%nat).

Lemma walks_front pl us s n f cur rest :
  pl = cur :: rest -> walks near segs pl us -> nth_error segs n = Some s -> near (walk_end s f) cur = true ->
  walks near segs (walk_start s f :: pl) ((n, f) :: us).
Proof.
  intros -> [L H] Es Hn. split; [cbn in *; lia|]. intros [|k] i fwd E; cbn [nth_error] in E.
  - injection E as <- <-. exists s, (walk_start s f), cur. cbn. auto 6.
  - apply H in E as (s' & p & q & E). exists s', p, q. exact E.
Qed.
Lemma walks_back pl us s n f cur :
  nth_error pl (length pl - 1) = Some cur -> walks near segs pl us -> nth_error segs n = Some s -> near (walk_start s f) cur = true ->
  walks near segs (pl ++ [walk_end s f]) (us ++ [(n, f)]).
Proof.
  intros Ec [L H] Es Hn. split; [rewrite !app_length; cbn; lia|]. intros k i fwd E.
  destruct (Nat.lt_trichotomy k (length us)) as [K|[K|K]].
  - rewrite nth_error_app1 in E by assumption. apply H in E as (s' & p & q & E1 & E2 & E3 & E4).
    exists s', p, q. rewrite !nth_error_app1 by lia. auto.
  - subst k. rewrite nth_error_app2, Nat.sub_diag in E by lia. cbn in E. injection E as <- <-.
    exists s, cur, (walk_end s f). split; [assumption|]. split; [|split; [|split; [right; assumption|left; reflexivity]]].
    + rewrite nth_error_app1 by lia. rewrite <- Ec. f_equal. lia.
    + rewrite nth_error_app2 by lia. replace (S (length us) - length pl)%nat with 0%nat by lia. reflexivity.
  - assert (nth_error (us ++ [(n, f)]) k = None) by (apply nth_error_None; rewrite app_length; cbn; lia). congruence.
Qed.

(** no unused endpoint is near [p] *)
Definition dead (dn : list nat) (p : vec3) : Prop :=
  forall e ep, nth_error eps e = Some ep -> ~ In (ep_seg ep) dn -> near (ep_point ep) p = false.

Definition end_of (front : bool) (pl : list vec3) : option vec3 := nth_error pl (if front then 0%nat else (length pl - 1)%nat).

Lemma extend_ok prev st us front : chain_inv prev st us ->
  (fextend fl near segs eps front st = UB /\ ~ Forall small_segment segs) \/ exists b st' us', fextend fl near segs eps front st = Ok (b, st') /\ chain_inv prev st' us' /\ incl us us' /\
   (if b then length us' = S (length us) else st' = st /\ us' = us /\
      (near_sound near -> forall p, end_of front (snd st) = Some p -> dead (snd (fst st)) p)).
Proof.
  destruct st as [[ix dn] pl]. intros (I & Fp & Wk & Pm & Nd & Bd).
  assert (0 < length pl)%nat as Lp by (destruct Wk as [L _]; lia).
  destruct (nth_some pl (if front then 0 else length pl - 1)) as (cur & Ec); [destruct front; lia|].
  unfold fextend. rewrite (get_nth _ _ _ Ec). cbn [bind].
  assert (is_pt cur) as Pc by (rewrite Forall_forall in Fp; apply Fp; eapply nth_error_In; eassumption).
  destruct (dnearby_ok ix cur (is_pt_fits _ Pc)) as [(-> & NS)|(cands & -> & C1 & C2)].
  { left. split; [reflexivity|]. intros F. apply NS, is_pt_small; assumption. }
  right. cbn [bind].
  destruct (pick_ok dn cur cands) as (r & -> & Hr).
  { intros e He. destruct (C1 e He) as (k & Hk). exact (proj1 I k e Hk). }
  cbn [bind]. destruct r as [e|].
  - destruct Hr as (ep & Ee & Hd & Hn). rewrite (get_nth _ _ _ Ee). cbn [bind].
    destruct (ep_facts _ _ Ee) as (s & Es & Ept). unfold far_point. rewrite (get_nth _ _ _ Es). cbn [bind].
    destruct (drop_ok ix dn e ep Ee I) as (ix' & -> & I'). cbn [bind].
    assert (forall us', (us' = (ep_seg ep, negb (ep_p1 ep)) :: us \/ us' = us ++ [(ep_seg ep, ep_p1 ep)]) ->
      Permutation (ep_seg ep :: dn) (map fst us' ++ prev)) as Pm'.
    { intros us' [->| ->]; cbn [map fst app].
      - apply perm_skip. assumption.
      - rewrite map_app. cbn [map fst]. rewrite <- app_assoc. cbn [app]. apply Permutation_cons_app. assumption. }
    assert (NoDup (ep_seg ep :: dn)) as Nd' by (constructor; assumption).
    assert (forall s, In s (ep_seg ep :: dn) -> (s < length segs)%nat) as Bd'.
    { intros s' [<-|K]; [apply nth_error_Some; congruence|auto]. }
    assert (is_pt (if ep_p1 ep then sp2 s else sp1 s)) as Ip.
    { exists (ep_seg ep), s, (negb (ep_p1 ep)). split; [assumption|]. destruct (ep_p1 ep); reflexivity. }
    destruct front.
    + eexists _, _, ((ep_seg ep, negb (ep_p1 ep)) :: us). split; [reflexivity|]. split; [|split; [apply incl_tl, incl_refl|reflexivity]].
      split; [exact I'|]. split; [constructor; assumption|]. split; [|split; [apply Pm'; left; reflexivity|split; [exact Nd'|exact Bd']]].
      destruct pl as [|c rest]; [cbn in Lp; lia|]. cbn in Ec. injection Ec as ->.
      replace (if ep_p1 ep then sp2 s else sp1 s) with (walk_start s (negb (ep_p1 ep))) by (destruct (ep_p1 ep); reflexivity).
      eapply walks_front; [reflexivity|assumption|assumption|]. rewrite <- Hn, Ept. destruct (ep_p1 ep); reflexivity.
    + eexists _, _, (us ++ [(ep_seg ep, ep_p1 ep)]). split; [reflexivity|]. split; [|split; [apply incl_appl, incl_refl|rewrite app_length; cbn; lia]].
      split; [exact I'|]. split; [|split; [|split; [apply Pm'; right; reflexivity|split; [exact Nd'|exact Bd']]]].
      * apply Forall_app. split; [assumption|]. constructor; [assumption|constructor].
      * replace (if ep_p1 ep then sp2 s else sp1 s) with (walk_end s (ep_p1 ep)) by (destruct (ep_p1 ep); reflexivity).
        eapply walks_back; [eassumption|assumption|assumption|]. rewrite <- Hn, Ept. destruct (ep_p1 ep); reflexivity.
  - exists false, (ix, dn, pl), us. split; [reflexivity|]. split; [exact (conj I (conj Fp (conj Wk (conj Pm (conj Nd Bd)))))|]. split; [apply incl_refl|].
    split; [reflexivity|]. split; [reflexivity|]. intros Hs p Hp. cbn [fst snd] in *. unfold end_of in Hp. rewrite Ec in Hp. injection Hp as <-.
    intros e ep Ee Hd. destruct (near (ep_point ep) cur) eqn:En; [|reflexivity]. exfalso.
    destruct (Hr e ep) as [K|K]; [|assumption|contradiction|congruence].
    eapply C2; [eapply ep_fits; exact Ee|apply (proj2 I); eassumption|]. apply Hs. assumption.
Qed.

Lemma chain_len prev ix dn pl us : chain_inv prev (ix, dn, pl) us -> (length us + length prev <= length segs)%nat.
Proof.
  intros (_ & _ & _ & Pm & Nd & Bd). apply Permutation_length in Pm. rewrite app_length, map_length in Pm. rewrite <- Pm.
  rewrite <- (seq_length (length segs) 0). apply NoDup_incl_length; [assumption|]. intros s Hs. apply in_seq. apply Bd in Hs. lia.
Qed.

Lemma loop_ok prev : forall fuel st us, chain_inv prev st us -> (length segs < fuel + length us)%nat ->
  (fextend_loop fl near segs eps fuel st = UB /\ ~ Forall small_segment segs) \/ exists st' us', fextend_loop fl near segs eps fuel st = Ok st' /\ chain_inv prev st' us' /\ (length us <= length us')%nat /\ incl us us' /\
    (near_sound near -> forall front p, end_of front (snd st') = Some p -> dead (snd (fst st')) p).
Proof.
  induction fuel as [|f IH]; intros st us C L.
  - exfalso. destruct st as [[ix dn] pl]. apply chain_len in C. lia.
  - cbn [fextend_loop].
    destruct (extend_ok prev st us true C) as [(-> & NS)|(a & st1 & us1 & -> & C1 & N1 & H1)]; [left; split; [reflexivity|exact NS]|]. cbn [bind].
    destruct (extend_ok prev st1 us1 false C1) as [(-> & NS)|(b & st2 & us2 & -> & C2 & N2 & H2)]; [left; split; [reflexivity|exact NS]|]. cbn [bind].
    assert (length us <= length us1)%nat as L1 by (destruct a; [lia|destruct H1 as (_ & -> & _); lia]).
    assert (length us1 <= length us2)%nat as L2 by (destruct b; [lia|destruct H2 as (_ & -> & _); lia]).
    destruct (a || b) eqn:Eab.
    + destruct (IH st2 us2 C2) as [NS|(st' & us' & E & C' & L' & N' & D)]; [destruct a, b; try discriminate; lia|left; exact NS|].
      right. exists st', us'. repeat apply conj; [assumption|assumption|lia|exact (incl_tran N1 (incl_tran N2 N'))|assumption].
    + apply orb_false_iff in Eab as [-> ->]. destruct H1 as (-> & -> & D1). destruct H2 as (-> & -> & D2).
      right. exists st, us. repeat apply conj; [reflexivity|assumption|lia|apply incl_refl|]. intros Hs [|]; [apply D1|apply D2]; assumption.
Qed.
End Run.

(** ** The main loop *)
Section Main.
Variable near : vec3 -> vec3 -> bool.
Variable segs : list segment.
Hypothesis Hfits : Forall dfits_segment segs.
Let eps := make_endpoints 0 segs.

Definition pts_of (cs : list (list vec3 * list (nat * bool))) := map fst cs.
Definition uses_of (cs : list (list vec3 * list (nat * bool))) := map snd cs.

Definition main_inv (br0 : list (list vec3)) (i : nat) (st : sindex * list nat * list (list vec3)) : Prop :=
  let '(ix, dn, br) := st in exists cs outs,
  ix_inv segs ix dn /\ br = br0 ++ outs /\
  Forall2 (handed_out near) (pts_of cs) outs /\ Forall (fun c => walks near segs (fst c) (snd c)) cs /\
  Forall (fun c => snd c <> []) cs /\
  Permutation dn (map fst (concat (uses_of cs))) /\ NoDup dn /\ (forall s, In s dn -> (s < length segs)%nat) /\
  (forall e ep, (e < i)%nat -> nth_error eps e = Some ep -> In (ep_seg ep) dn) /\
  (near_sound near -> forall l1 c l2, cs = l1 ++ c :: l2 ->
     forall front p, end_of front (fst c) = Some p -> dead near segs (map fst (concat (uses_of (l1 ++ [c])))) p).

Lemma end_front a l : end_of true (a :: l) = Some a.
Proof. reflexivity. Qed.

Lemma close_ok pl us : walks near segs pl us -> us <> [] -> exists out, close_polyline near pl = Ok out /\ handed_out near pl out.
Proof.
  intros [L _] Hu. destruct pl as [|a [|b t]]; [discriminate|destruct us; [congruence|cbn in L; lia]|].
  destruct (@exists_last _ (b :: t)) as (m & z & E); [discriminate|]. rewrite E.
  exists (if near a z then a :: m else a :: m ++ [z]). split.
  - unfold close_polyline. cbn [get nth_error of_option bind]. unfold get. cbn [length nth_error].
    rewrite app_length. cbn [length]. replace (S (length m + 1) - 1)%nat with (S (length m)) by lia. cbn [nth_error].
    rewrite nth_error_app2, Nat.sub_diag by lia. cbn [nth_error of_option bind]. destruct (near a z); [|reflexivity].
    rewrite app_comm_cons, removelast_last. reflexivity.
  - exists a, z, m. split; [reflexivity|]. destruct (near a z); auto.
Qed.

Lemma split_last {A} (cs : list A) c0 l1 c l2 : cs ++ [c0] = l1 ++ c :: l2 ->
  (exists l2', cs = l1 ++ c :: l2') \/ (l1 = cs /\ c = c0).
Proof.
  intros E. destruct l2 as [|x l2].
  - apply app_inj_tail in E as [-> ->]. auto.
  - destruct (@exists_last _ (x :: l2)) as (m & z & E2); [discriminate|]. rewrite E2 in E.
    rewrite app_comm_cons, app_assoc in E. apply app_inj_tail in E as [-> ->]. left. eauto.
Qed.

Lemma step_ok br0 i st : (i < length eps)%nat -> main_inv br0 i st ->
  (fassemble_step fl near segs eps i st = UB /\ ~ Forall small_segment segs) \/ exists st', fassemble_step fl near segs eps i st = Ok st' /\ main_inv br0 (S i) st'.
Proof.
  destruct st as [[ix dn] br]. intros Hi (cs & outs & I & Eb & F1 & F2 & F3 & Pm & Nd & Bd & Dn & Mx).
  destruct (nth_some eps i Hi) as (ep & Ee). unfold fassemble_step. rewrite (get_nth _ _ _ Ee). cbn [bind].
  destruct (processed (ep_seg ep) dn) eqn:Ep.
  - right. eexists. split; [reflexivity|]. exists cs, outs.
    repeat (split; [first [assumption|exact I]|]). split; [|exact Mx].
    intros e ep' He Ee'. destruct (Nat.eq_dec e i) as [->|N]; [|eapply Dn; [|eassumption]; lia].
    rewrite Ee in Ee'. injection Ee' as <-. apply processed_iff in Ep. assumption.
  - apply processed_false in Ep.
    destruct (ep_facts segs _ _ Ee) as (s & Es & Ept). unfold far_point. rewrite (get_nth _ _ _ Es). cbn [bind].
    destruct (drop_ok segs Hfits ix dn i ep Ee I) as (ix1 & E1 & I1). fold eps in E1. rewrite E1. cbn [bind].
    set (far := if ep_p1 ep then sp2 s else sp1 s).
    assert (chain_inv near segs dn (ix1, ep_seg ep :: dn, [ep_point ep; far]) [(ep_seg ep, ep_p1 ep)]) as C.
    { split; [exact I1|]. split; [|split; [|split; [|split]]].
      - constructor; [exists (ep_seg ep), s, (ep_p1 ep); auto|]. constructor; [|constructor].
        exists (ep_seg ep), s, (negb (ep_p1 ep)). split; [assumption|]. unfold far. destruct (ep_p1 ep); reflexivity.
      - split; [reflexivity|]. intros [|k] n f E; [|destruct k; discriminate]. cbn in E. injection E as <- <-.
        exists s, (ep_point ep), far. split; [assumption|]. split; [reflexivity|]. split; [reflexivity|]. split; left.
        + exact Ept.
        + unfold far, walk_end. reflexivity.
      - apply Permutation_refl.
      - constructor; assumption.
      - intros x [<-|Hx]; [apply nth_error_Some; congruence|auto]. }
    destruct (loop_ok near segs Hfits dn (S (length segs)) _ _ C) as [(E2 & NS)|([[ix2 dn2] pl] & us & E2 & C2 & L2 & N2 & D2)]; [lia|left; fold eps in E2; rewrite E2; split; [reflexivity|exact NS]|].
    right. fold eps in E2. rewrite E2. cbn [bind]. destruct C2 as (I2 & Fp & Wk & Pm2 & Nd2 & Bd2).
    assert (us <> []) as Hu by (intros ->; cbn in L2; lia).
    destruct (close_ok pl us Wk Hu) as (out & -> & Ho). cbn [bind].
    eexists. split; [reflexivity|]. exists (cs ++ [(pl, us)]), (outs ++ [out]).
    assert (Permutation dn2 (map fst (concat (uses_of (cs ++ [(pl, us)]))))) as PmN.
    { unfold uses_of. rewrite map_app, concat_app, map_app. cbn. rewrite app_nil_r.
      rewrite Pm2. rewrite Pm. apply Permutation_app_comm. }
    split; [exact I2|]. split; [rewrite Eb, app_assoc; reflexivity|].
    split; [unfold pts_of; rewrite map_app; apply Forall2_app; [assumption|constructor; [assumption|constructor]]|].
    split; [apply Forall_app; split; [assumption|constructor; [assumption|constructor]]|].
    split; [apply Forall_app; split; [assumption|constructor; [assumption|constructor]]|].
    split; [exact PmN|]. split; [exact Nd2|]. split; [exact Bd2|]. split.
    + intros e ep' He Ee'. apply (Permutation_in _ (Permutation_sym Pm2)). apply in_or_app.
      destruct (Nat.eq_dec e i) as [->|N].
      * rewrite Ee in Ee'. injection Ee' as <-.
        left. apply in_map_iff. exists (ep_seg ep, ep_p1 ep). split; [reflexivity|]. apply N2. left. reflexivity.
      * right. eapply Dn; [|eassumption]. lia.
    + intros Hs l1 c l2 Ec front p Hp. apply split_last in Ec as [(l2' & ->)|[-> ->]].
      * eapply Mx; eauto.
      * intros e ep' Ee' Hn. eapply (D2 Hs front p Hp); [eassumption|]. intros K. apply Hn.
        apply (Permutation_in _ PmN). exact K.
Qed.

Lemma for_up_or {A} (P : Prop) (I : nat -> A -> Prop) body : forall count i s, I i s ->
  (forall j s, (i <= j < i + count)%nat -> I j s -> (body j s = UB /\ P) \/ exists s', body j s = Ok s' /\ I (S j) s') ->
  (for_up count i body s = UB /\ P) \/ exists s', for_up count i body s = Ok s' /\ I (i + count)%nat s'.
Proof.
  induction count as [|c IH]; intros i s Hi H; [right; exists s; rewrite Nat.add_0_r; split; [reflexivity|exact Hi]|]. cbn [for_up].
  destruct (H i s ltac:(lia) Hi) as [(-> & HP)|(s' & -> & Hs)]; [left; split; [reflexivity|exact HP]|]. cbn [bind].
  replace (i + S c)%nat with (S i + c)%nat by lia. apply IH; [exact Hs|]. intros j t Hj. apply H. lia.
Qed.
Lemma assemble_all br0 : (fassemble_polylines fl near segs br0 = UB /\ ~ Forall small_segment segs) \/ exists cs outs,
  fassemble_polylines fl near segs br0 = Ok (br0 ++ outs) /\
  assembled near segs outs (pts_of cs) (uses_of cs) /\
  (near_sound near -> cannot_be_joined near segs (pts_of cs) (uses_of cs)).
Proof.
  unfold fassemble_polylines. fold eps. destruct (build_ok segs Hfits) as (ix & E & I). fold eps in E. rewrite E. cbn [bind].
  destruct (for_up_or (~ Forall small_segment segs) (main_inv br0) (fassemble_step fl near segs eps) (length eps) 0 (ix, [], br0)) as [(E2 & NS)|([[ix' dn] br] & E2 & H)].
  - exists [], []. split; [exact I|]. split; [rewrite app_nil_r; reflexivity|].
    repeat (split; [constructor|]). split; [intros s []|]. split; [intros; lia|]. intros _ l1 c l2 K. destruct l1; discriminate.
  - intros i st Hi H. apply step_ok; [lia|assumption].
  - left. rewrite E2. split; [reflexivity|exact NS].
  - right. rewrite E2. cbn [bind]. destruct H as (cs & outs & I' & -> & F1 & F2 & F3 & Pm & Nd & Bd & Dn & Mx).
    exists cs, outs. split; [reflexivity|]. split; [split; [|split; [|split]]|].
    + rewrite <- Pm. apply NoDup_Permutation; [assumption|apply seq_NoDup|]. intros s. rewrite in_seq. split.
      * intros Hs. apply Bd in Hs. lia.
      * intros [_ Hs]. destruct (nth_some segs s) as (sg & Es); [lia|].
        destruct (endpoints_all segs 0 s sg true Es) as (e & Ee). fold eps in Ee. apply (Dn e _) in Ee; [exact Ee|].
        cbn. apply nth_error_Some. congruence.
    + assumption.
    + clear - F2. unfold pts_of, uses_of. induction F2; constructor; assumption.
    + clear - F3. unfold uses_of. induction F3; constructor; assumption.
    + intros Hs i j p u b n sg q Hij Hp Hu Hin Hsg Hq d.
      assert (exists c, nth_error cs i = Some c /\ fst c = p) as (c & Ec & Ecp).
      { unfold pts_of in Hp. rewrite nth_error_map in Hp. destruct (nth_error cs i); [|discriminate]. cbn in Hp. injection Hp as <-. eauto. }
      apply nth_error_split in Ec as (l1 & l2 & Ecs & Ll). subst cs p.
      assert (In u (uses_of l2)) as Hu2.
      { unfold uses_of in *. rewrite map_app in Hu. rewrite nth_error_app2 in Hu by (rewrite map_length; lia).
        rewrite map_length in Hu. cbn [map] in Hu. destruct (j - length l1)%nat eqn:Ej; [lia|]. cbn in Hu. apply nth_error_In in Hu. assumption. }
      assert (~ In n (map fst (concat (uses_of (l1 ++ [c]))))) as Hn.
      { intros K. assert (NoDup (map fst (concat (uses_of (l1 ++ c :: l2))))) as ND by (rewrite <- Pm; assumption).
        replace (l1 ++ c :: l2) with ((l1 ++ [c]) ++ l2) in ND by (rewrite <- app_assoc; reflexivity).
        unfold uses_of in ND, K, Hu2. rewrite map_app, concat_app, map_app in ND.
        assert (In n (map fst (concat (map snd l2)))) as K2.
        { apply in_map_iff. exists (n, b). split; [reflexivity|]. apply in_concat. eauto. }
        clear - ND K K2. revert ND K. generalize (map fst (concat (map snd (l1 ++ [c])))). intros l. induction l as [|x t IH]; intros ND K; [contradiction|].
        cbn [app] in ND. inversion ND; subst. destruct K as [->|K]; [apply H1, in_or_app; right; assumption|auto]. }
      assert (exists e bb, nth_error eps e = Some (EP q n bb)) as (e & bb & Ee).
      { destruct Hq as [->| ->]; [destruct (endpoints_all segs 0 n sg true Hsg) as (e & Ee)|destruct (endpoints_all segs 0 n sg false Hsg) as (e & Ee)]; eauto. }
      assert (forall front p, end_of front (fst c) = Some p -> near q p = false) as K.
      { intros front p Hp'. exact (Mx Hs l1 c l2 eq_refl front p Hp' e _ Ee Hn). }
      assert (fst c <> []) as Nn.
      { intros E0. rewrite Forall_forall in F2. destruct (F2 c) as [Lc _]; [apply in_or_app; right; left; reflexivity|]. rewrite E0 in Lc. discriminate. }
      split.
      * apply (K true). destruct (fst c); [congruence|reflexivity].
      * apply (K false). destruct (@exists_last _ (fst c) Nn) as (m & z & Em). rewrite Em. unfold end_of.
        rewrite app_length. cbn [length]. rewrite nth_error_app2 by lia. replace (length m + 1 - 1 - length m)%nat with 0%nat by lia.
        rewrite last_last. reflexivity.
Qed.
End Main.

Lemma fcell_of_cases c : fcell_of fl c = UB \/ exists z, fcell_of fl c = Ok z.
Proof. unfold fcell_of, int_op. destruct (fl 0%nat (c / PL_EPS)) as [s|]; [|auto]. destruct (fl 0%nat (s + qc 1 2)); [|auto]. destruct (_ && _); eauto. Qed.
Lemma fkey_of_cases p : fkey_of fl p = UB \/ exists k, fkey_of fl p = Ok k.
Proof.
  unfold fkey_of. destruct (fcell_of_cases (vx p)) as [E|(x & E)]; rewrite E; [auto|]. cbn [bind].
  destruct (fcell_of_cases (vy p)) as [E2|(y & E2)]; rewrite E2; [auto|]. cbn [bind].
  destruct (fcell_of_cases (vz p)) as [E3|(z & E3)]; rewrite E3; [auto|]. cbn [bind]. eauto.
Qed.
Lemma fcell_of_ok c z : dbl c -> fcell_of fl c = Ok z -> dfits c.
Proof.
  intros D. rewrite (fcell_eq c D). intros H. split; [exact D|]. destruct (Z.lt_ge_cases (fcell c) (- 2 ^ 31)); [rewrite int_op_ub in H by lia; discriminate|].
  destruct (Z.lt_ge_cases (fcell c) (2 ^ 31)); [lia|rewrite int_op_ub in H by lia; discriminate].
Qed.
Lemma fkey_of_ok p k : double_point p -> fkey_of fl p = Ok k -> dfits3 p.
Proof.
  intros (A & B & C) H. apply a_double_dbl in A, B, C. destruct k as [[x y] z]. apply fkey_inv in H. destruct H as (X & Y & Z).
  split; [|split]; eapply fcell_of_ok; eassumption.
Qed.
Lemma fbuild_cases eps : forall count i ix, (i + count <= length eps)%nat ->
  for_up count i (fun e ix => fadd_to_index fl eps ix e) ix = UB \/ exists ix', for_up count i (fun e ix => fadd_to_index fl eps ix e) ix = Ok ix'.
Proof.
  induction count as [|c IH]; intros i ix Hl; [right; eexists; reflexivity|]. cbn [for_up]. unfold fadd_to_index at 1 3.
  destruct (nth_some eps i) as (ep' & E'); [lia|]. rewrite (get_nth _ _ _ E'). cbn [bind].
  destruct (fkey_of_cases (ep_point ep')) as [K|(k & K)]; rewrite K; [left; reflexivity|]. cbn [bind]. apply IH. lia.
Qed.
Lemma fassemble_any near segs br0 : Forall double_segment segs -> fassemble_polylines fl near segs br0 = UB \/ exists outs pts uses,
  fassemble_polylines fl near segs br0 = Ok (br0 ++ outs) /\ assembled near segs outs pts uses /\ (near_sound near -> cannot_be_joined near segs pts uses).
Proof.
  intros DS. destruct (fbuild_cases (make_endpoints 0 segs) (length (make_endpoints 0 segs)) 0 [] ltac:(lia)) as [E|(ix & E)].
  - left. unfold fassemble_polylines, fbuild_index. rewrite E. reflexivity.
  - assert (Forall dfits_segment segs) as F.
    { apply Forall_forall. intros s Hs. rewrite Forall_forall in DS. destruct (DS s Hs) as (D1 & D2). apply In_nth_error in Hs as (n & Hn).
      destruct (findex_all fl _ _ _ _ _ E) as (_ & B).
      destruct (endpoints_all segs 0 n s true Hn) as (e1 & E1). destruct (endpoints_all segs 0 n s false Hn) as (e2 & E2).
      split.
      - destruct (B e1 _ ltac:(split; [lia|apply nth_error_Some; congruence]) E1) as (k & K & _). exact (fkey_of_ok _ _ D1 K).
      - destruct (B e2 _ ltac:(split; [lia|apply nth_error_Some; congruence]) E2) as (k & K & _). exact (fkey_of_ok _ _ D2 K). }
    destruct (assemble_all near segs F br0) as [(U & _)|(cs & outs & H)]; [left; exact U|right; eauto].
Qed.
Lemma fassemble_returns near segs br0 r : near_sound near -> Forall double_segment segs -> fassemble_polylines fl near segs br0 = Ok r -> exists outs pts uses,
  r = br0 ++ outs /\ assembled near segs outs pts uses /\ cannot_be_joined near segs pts uses.
Proof.
  intros N D H. destruct (fassemble_any near segs br0 D) as [U|(outs & pts & uses & E & A & M)]; [congruence|]. exists outs, pts, uses. rewrite H in E. injection E as ->. auto.
Qed.
Lemma dall_fit segs : Forall small_segment segs -> Forall double_segment segs -> Forall dfits_segment segs.
Proof.
  rewrite !Forall_forall. intros S D s Hs. destruct (S s Hs) as (A & B). destruct (D s Hs) as (A' & B').
  assert (forall p, small3 p -> double_point p -> dfits3 p) as K.
  { intros p (S1 & S2 & S3) (D1 & D2 & D3). apply fcell_small in S1, S2, S3. apply a_double_dbl in D1, D2, D3. unfold LIM in *. repeat split; try assumption; lia. }
  split; apply K; assumption.
Qed.
Lemma fassemble_maximal near segs br0 : near_sound near -> Forall small_segment segs -> Forall double_segment segs -> exists outs pts uses,
  fassemble_polylines fl near segs br0 = Ok (br0 ++ outs) /\ assembled near segs outs pts uses /\ cannot_be_joined near segs pts uses.
Proof. intros Hs H D. destruct (assemble_all near segs (dall_fit _ H D) br0) as [(_ & N)|(cs & outs & E & A & M)]; [contradiction|eauto 8]. Qed.
End Doubles.

Lemma fjoin_returns : forall fl, in_all_doubles fl -> forall root, root_spec root -> forall segs branches r,
  Forall double_segment segs -> fassemble_polylines fl (fnear fl root) segs branches = Ok r -> exists outs pts uses,
  r = branches ++ outs /\ assembled (fnear fl root) segs outs pts uses /\ cannot_be_joined (fnear fl root) segs pts uses.
Proof. intros fl FL root RS segs branches r. apply (fassemble_returns fl FL), (fnear_sound fl FL root RS). Qed.
Lemma fjoin_small : forall fl, in_all_doubles fl -> forall root, root_spec root -> forall segs branches,
  Forall small_segment segs -> Forall double_segment segs -> exists outs pts uses,
  fassemble_polylines fl (fnear fl root) segs branches = Ok (branches ++ outs) /\
  assembled (fnear fl root) segs outs pts uses /\ cannot_be_joined (fnear fl root) segs pts uses.
Proof. intros fl FL root RS segs branches. apply (fassemble_maximal fl FL), (fnear_sound fl FL root RS). Qed.
