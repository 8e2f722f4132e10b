(** Knot insertion, splitting and subdivision of surfaces. *)
From Coq Require Import List ZArith QArith Qcanon Bool Lia Lqa Field.
From Verif Require Import Base BaseFacts LoopFacts ModelVec ModelAabb SpecAabb ProofAabb ModelNurbs ModelSurface SpecNurbs SpecSurface ProofBspline ProofInsertion ProofNurbs ProofInsertCurve ProofInsertKnot ProofCurve ProofSplit ProofSurfaceSums ProofSurface.
Import ListNotations.
Open Scope Qc_scope.

Lemma tensor_u c s n m u v : tensor c s n m u v =
  qsum (fun i => basis_at (ns_ku s) n (ns_du s) u i * qsum (fun j => basis_at (ns_kv s) m (ns_dv s) v j * c (cp (ns_cps s) i j)) (S m)) (S n).
Proof.
  unfold tensor. apply qsum_ext. intros i _. rewrite <- qsum_scale. apply qsum_ext. intros j _. ring.
Qed.
Lemma tensor_v c s n m u v : tensor c s n m u v =
  qsum (fun j => basis_at (ns_kv s) m (ns_dv s) v j * qsum (fun i => basis_at (ns_ku s) n (ns_du s) u i * c (cp (ns_cps s) i j)) (S n)) (S m).
Proof.
  unfold tensor. rewrite qsum_swap. apply qsum_ext. intros i _. rewrite <- qsum_scale. apply qsum_ext. intros j _. ring.
Qed.

Lemma cp_map (g : nat -> nat -> vec4) a b i j : (i < a)%nat -> (j < b)%nat ->
  cp (map (fun i => map (g i) (seq 0 b)) (seq 0 a)) i j = g i j.
Proof. intros Hi Hj. unfold cp. rewrite nth_map_seq by assumption. apply nth_map_seq. assumption. Qed.

Lemma range_ok (k : list Qc) : k <> [] -> range_of k = Ok (knot k 0, knot k (length k - 1)).
Proof.
  intros H. destruct k as [|a l]; [contradiction|]. unfold range_of. f_equal. f_equal.
  unfold knot. generalize (a :: l) H. clear. intros l H. destruct (exists_last H) as (l' & x & ->).
  rewrite last_last, app_length. cbn [length]. rewrite app_nth2 by lia. replace (length l' + 1 - 1 - length l')%nat with 0%nat by lia. reflexivity.
Qed.

Lemma valid_nonempty n p U : valid_knots n p U -> U <> [].
Proof. intros (A & B & _) E. rewrite E in B. cbn in B. lia. Qed.

Lemma flat_points_ok s n m : good_surf s n m ->
  flat_points s = Ok (map (fun k => cp (ns_cps s) (k / S m) (k mod S m)) (seq 0 (S n * S m))).
Proof.
  intros G. pose proof G as (G1 & G2 & G3 & G4 & _). unfold flat_points. rewrite G3, G4. apply mapM_map.
  intros x Hx. apply in_seq in Hx. assert (x / S m < S n)%nat by (apply Nat.div_lt_upper_bound; lia).
  apply get2_nat; [lia|]. erewrite good_rows by eassumption. apply Nat.mod_upper_bound. lia.
Qed.

Lemma column_ok s n m j : good_surf s n m -> (j < S m)%nat ->
  mapM (fun u => get (map (fun k => cp (ns_cps s) (k / S m) (k mod S m)) (seq 0 (S n * S m))) (u * ns_sv s + j)) (seq 0 (ns_su s)) =
  Ok (map (fun i => cp (ns_cps s) i j) (seq 0 (S n))).
Proof.
  intros G Hj. pose proof G as (G1 & G2 & G3 & G4 & _). rewrite G3, G4. apply mapM_map. intros i Hi. apply in_seq in Hi.
  assert (i * S m + j < S n * S m)%nat by nia.
  rewrite (get_ok _ _ d4) by (rewrite map_length, seq_length; assumption). f_equal. rewrite nth_map_seq by assumption.
  rewrite Nat.div_add_l by lia. rewrite (Nat.div_small j) by assumption. rewrite Nat.add_0_r. f_equal.
  rewrite Nat.add_comm. rewrite Nat.mod_add by lia. apply Nat.mod_small. assumption.
Qed.

Lemma column_nth (P : list (list vec4)) n j i : length P = S n ->
  nth i (map (fun i => cp P i j) (seq 0 (S n))) d4 = cp P i j.
Proof.
  intros H. destruct (Nat.lt_ge_cases i (S n)).
  - apply (nth_map_seq (fun i => cp P i j)). assumption.
  - rewrite nth_overflow by (rewrite map_length, seq_length; assumption). unfold cp. rewrite (nth_overflow P) by lia. destruct j; reflexivity.
Qed.

Lemma insert_u_ok s n m t r k : good_surf s n m ->
  (ns_du s <= k <= n)%nat -> knot (ns_ku s) k <= t -> t < knot (ns_ku s) (S k) ->
  separated (ns_ku s) t -> (r + multiplicity (ns_ku s) t <= ns_du s)%nat ->
  exists cps, ns_insert_u s t r =
    Ok (NS (ns_du s) (ns_dv s) (S n + r) (S m) (ns_iu s) (ns_iv s) cps (ins_knots (ns_ku s) k t r) (ns_kv s) (ns_bbox s) (ns_aabb s)) /\
    length cps = (S n + r)%nat /\ (forall row, In row cps -> length row = S m) /\
    forall i j c, (i < S n + r)%nat -> (j < S m)%nat -> comp4 c ->
      c (cp cps i j) = pq (knot (ns_ku s)) k (ns_du s) t (fun i => c (cp (ns_cps s) i j)) r i.
Proof.
  intros G Hk T1 T2 SEP Hr. pose proof G as (G1 & G2 & G3 & G4 & VU & VV & H8 & _). pose proof VU as (Hpn & HL & HS & HN).
  pose proof (sorted_mono _ HS) as M.
  destruct (multiplicity_span _ k t HS ltac:(lia) T1 T2) as (S1 & S2 & S3).
  unfold ns_insert_u. rewrite G1. cbn [last_index surf_span].
  rewrite (find_span_at n _ _ k t M) by (lia || assumption). cbn [bind].
  rewrite kv_spec by lia. cbn [bind]. rewrite find_multiplicity_spec by assumption.
  rewrite (flat_points_ok s n m G). cbn [bind].
  match goal with |- context [mapM ?f (seq 0 (ns_sv s))] =>
    destruct (mapM_ex f (fun j new => length new = (S n + r)%nat /\ forall i c, (i < S n + r)%nat -> comp4 c ->
      c (nth i new d4) = pq (knot (ns_ku s)) k (ns_du s) t (fun i => c (cp (ns_cps s) i j)) r i) (seq 0 (ns_sv s))) as (cols & Ec & Fc) end.
  { intros j Hj. apply in_seq in Hj. rewrite G4 in Hj. rewrite (column_ok s n m j G) by lia. cbn [bind].
    destruct (knot_insertion_spec (ns_ku s) (map (fun i => cp (ns_cps s) i j) (seq 0 (S n))) k (ns_du s) (multiplicity (ns_ku s) t) r n t) with (new0 := @nil vec4)
      as (new & E1 & L1 & K1); try assumption; try lia.
    { rewrite map_length, seq_length. reflexivity. }
    { intros i Hi. apply S3. lia. }
    exists new. split; [exact E1|]. split; [exact L1|]. intros i c Hi Hc. rewrite K1 by assumption.
    apply pq_ext; [reflexivity|]. intros i' _. rewrite column_nth by assumption. reflexivity. }
  rewrite Ec. cbn [bind].
  pose proof (Forall2_length _ _ _ Fc) as Lc. rewrite seq_length, G4 in Lc. symmetry in Lc.
  assert (forall j, (j < S m)%nat -> length (nth j cols []) = (S n + r)%nat /\ forall i c, (i < S n + r)%nat -> comp4 c ->
      c (nth i (nth j cols []) d4) = pq (knot (ns_ku s)) k (ns_du s) t (fun i => c (cp (ns_cps s) i j)) r i) as Hcol.
  { intros j Hj. pose proof (Forall2_nth _ _ _ Fc j 0%nat [] ltac:(rewrite seq_length; lia)) as K. rewrite seq_nth in K by lia. exact K. }
  unfold flip. rewrite (get_ok _ _ []) by lia. cbn [bind]. rewrite (proj1 (Hcol 0%nat ltac:(lia))).
  rewrite (mapM_map _ (fun i => map (fun row => nth i row d4) cols)).
  2:{ intros i Hi. apply in_seq in Hi. apply mapM_map. intros row Hrow. destruct (In_nth _ _ [] Hrow) as (j & Hj & <-).
      apply get_ok. rewrite (proj1 (Hcol j ltac:(lia))). lia. }
  cbn [bind]. eexists. split; [rewrite G3, G4; reflexivity|]. split; [rewrite map_length, seq_length; reflexivity|]. split.
  - intros row Hrow. apply in_map_iff in Hrow. destruct Hrow as (i & <- & _). rewrite map_length. assumption.
  - intros i j c Hi Hj Hc. unfold cp at 1. rewrite nth_map_seq by assumption.
    change (V4 0 0 0 0) with d4. rewrite (nth_indep _ d4 (nth i [] d4)) by (rewrite map_length; lia).
    rewrite (map_nth (fun row => nth i row d4)). apply (proj2 (Hcol j Hj)); assumption.
Qed.

Lemma insert_v_ok s n m t r k : good_surf s n m ->
  (ns_dv s <= k <= m)%nat -> knot (ns_kv s) k <= t -> t < knot (ns_kv s) (S k) ->
  separated (ns_kv s) t -> (r + multiplicity (ns_kv s) t <= ns_dv s)%nat ->
  exists cps iu iv, ns_insert_v s t r =
    Ok (NS (ns_du s) (ns_dv s) (S n) (S m + r) iu iv cps (ns_ku s) (ins_knots (ns_kv s) k t r) (ns_bbox s) (ns_aabb s)) /\
    iu = (knot (ns_ku s) 0, knot (ns_ku s) (length (ns_ku s) - 1)) /\
    iv = (knot (ins_knots (ns_kv s) k t r) 0, knot (ins_knots (ns_kv s) k t r) (length (ins_knots (ns_kv s) k t r) - 1)) /\
    length cps = S n /\ (forall row, In row cps -> length row = (S m + r)%nat) /\
    forall i j c, (i < S n)%nat -> (j < S m + r)%nat -> comp4 c ->
      c (cp cps i j) = pq (knot (ns_kv s)) k (ns_dv s) t (fun j => c (cp (ns_cps s) i j)) r j.
Proof.
  intros G Hk T1 T2 SEP Hr. pose proof G as (G1 & G2 & G3 & G4 & VU & VV & _ & H8). pose proof VV as (Hpn & HL & HS & HN).
  pose proof (sorted_mono _ HS) as M.
  destruct (multiplicity_span _ k t HS ltac:(lia) T1 T2) as (S1 & S2 & S3).
  unfold ns_insert_v. rewrite (get_ok _ _ []) by lia. cbn [bind]. rewrite (good_rows s n m 0 G) by lia.
  rewrite G4. cbn [last_index surf_span].
  rewrite (find_span_at m _ _ k t M) by (lia || assumption). cbn [bind].
  rewrite kv_spec by lia. cbn [bind]. rewrite find_multiplicity_spec by assumption.
  fold (ins_knots (ns_kv s) k t r).
  match goal with |- context [mapM ?f (ns_cps s)] =>
    destruct (mapM_ex f (fun row new => length new = (S m + r)%nat /\ forall i c, (i < S m + r)%nat -> comp4 c ->
      c (nth i new d4) = pq (knot (ns_kv s)) k (ns_dv s) t (fun i => c (nth i row d4)) r i) (ns_cps s)) as (cps & Ec & Fc) end.
  { intros row Hrow.
    destruct (knot_insertion_spec (ns_kv s) row k (ns_dv s) (multiplicity (ns_kv s) t) r m t) with (new0 := repeat v4zero (S m + r))
      as (new & E1 & L1 & K1); try assumption; try lia.
    { apply G2. assumption. }
    { intros i Hi. apply S3. lia. }
    exists new. split; [exact E1|]. split; [exact L1|]. intros i c Hi Hc. apply K1; assumption. }
  rewrite Ec. cbn [bind].
  pose proof (Forall2_length _ _ _ Fc) as Lc. rewrite G1 in Lc. symmetry in Lc.
  destruct (inserted_valid m _ _ k t r VV Hk T1 T2) as (V' & _). fold (ins_knots (ns_kv s) k t r) in V'.
  unfold ns_update_interval. cbn [ns_ku ns_kv]. rewrite range_ok by (eapply valid_nonempty; eassumption). cbn [bind].
  rewrite range_ok by (eapply valid_nonempty; eassumption). cbn [bind ns_du ns_dv ns_su ns_sv ns_cps ns_bbox ns_aabb].
  rewrite G3.
  eexists cps, _, _. split; [reflexivity|]. split; [reflexivity|]. split; [reflexivity|]. split; [assumption|]. split.
  - intros row Hrow. destruct (In_nth _ _ [] Hrow) as (i & Hi & <-).
    apply (Forall2_nth _ _ _ Fc i [] []). lia.
  - intros i j c Hi Hj Hc. apply (proj2 (Forall2_nth _ _ _ Fc i [] [] ltac:(lia))); assumption.
Qed.

(** ** what insertion preserves *)
Lemma ins_ends n p U k t r : valid_knots n p U -> (p <= k <= n)%nat -> knot U k <= t -> t < knot U (S k) ->
  knot (ins_knots U k t r) 0 = knot U 0 /\ knot (ins_knots U k t r) (length (ins_knots U k t r) - 1) = knot U (length U - 1).
Proof.
  intros V Hk T1 T2. pose proof V as (Hpn & HL & HS & HN).
  assert (forall i, knot (ins_knots U k t r) i = insr (knot U) k t r i) as KV by (intros; apply kv_knot; lia).
  rewrite !KV. split; [apply insr_lo; lia|]. apply insr_hi; unfold ins_knots; rewrite !app_length, repeat_length, firstn_length, skipn_length; lia.
Qed.

Definition sub_surf (part s : nsurf) (n m n' m' : nat) (ulo uhi vlo vhi : Qc) : Prop :=
  good_surf part n' m' /\ ns_du part = ns_du s /\ ns_dv part = ns_dv s /\
  positive_surf part /\ intervals_current part /\
  knot (ns_ku part) (ns_du part) = ulo /\ knot (ns_ku part) (n' + 1) = uhi /\
  knot (ns_kv part) (ns_dv part) = vlo /\ knot (ns_kv part) (m' + 1) = vhi /\
  forall u v, ulo <= u -> u <= uhi -> vlo <= v -> v <= vhi -> forall c, comp4 c -> tensor c part n' m' u v = tensor c s n m u v.

Definition lo_u (s : nsurf) : Qc := knot (ns_ku s) (ns_du s).
Definition hi_u (s : nsurf) (n : nat) : Qc := knot (ns_ku s) (n + 1).
Definition lo_v (s : nsurf) : Qc := knot (ns_kv s) (ns_dv s).
Definition hi_v (s : nsurf) (m : nat) : Qc := knot (ns_kv s) (m + 1).

Lemma positive_cp s n m : good_surf s n m -> positive_surf s -> forall i j, (i < S n)%nat -> (j < S m)%nat -> 0 < ww (cp (ns_cps s) i j).
Proof. intros G W i j Hi Hj. destruct (cp_in s n m i j G Hi Hj). eapply W; eassumption. Qed.
Lemma cp_positive s n m : length (ns_cps s) = S n -> (forall row, In row (ns_cps s) -> length row = S m) ->
  (forall i j, (i < S n)%nat -> (j < S m)%nat -> 0 < ww (cp (ns_cps s) i j)) -> positive_surf s.
Proof.
  intros G1 G2 H row q Hr Hq. destruct (In_nth _ _ [] Hr) as (i & Hi & <-). destruct (In_nth _ _ d4 Hq) as (j & Hj & <-).
  rewrite (G2 _ Hr) in Hj. apply H; lia.
Qed.

Lemma insert_u_sub s n m t r k : good_surf s n m -> positive_surf s -> intervals_current s ->
  (ns_du s <= k <= n)%nat -> knot (ns_ku s) k <= t -> t < knot (ns_ku s) (S k) ->
  separated (ns_ku s) t -> (r + multiplicity (ns_ku s) t <= ns_du s)%nat ->
  exists s', ns_insert_u s t r = Ok s' /\ ns_ku s' = ins_knots (ns_ku s) k t r /\ ns_kv s' = ns_kv s /\
    sub_surf s' s n m (n + r) m (lo_u s) (hi_u s n) (lo_v s) (hi_v s m).
Proof.
  intros G W IC Hk T1 T2 SEP Hr. destruct (insert_u_ok s n m t r k G Hk T1 T2 SEP Hr) as (cps & E & L1 & L2 & K).
  pose proof G as (G1 & G2 & G3 & G4 & VU & VV & H8 & H8').
  destruct (inserted_valid n _ _ k t r VU Hk T1 T2) as (V' & Vp & Vn). fold (ins_knots (ns_ku s) k t r) in V', Vp, Vn.
  eexists. split; [exact E|]. split; [reflexivity|]. split; [reflexivity|].
  split; [|split; [reflexivity|split; [reflexivity|split; [|split; [|split; [|split; [|split; [|split]]]]]]]].
  - repeat split; cbn; try assumption; try apply V'; try apply VV; lia.
  - apply (cp_positive _ (n + r) m); cbn [ns_cps]; [assumption|assumption|]. intros i j Hi Hj. rewrite K by (try assumption; unfold comp4; auto).
    apply (pq_pos (knot (ns_ku s)) k (ns_du s) t n); try assumption; try lia.
    + apply sorted_mono. apply VU.
    + intros i' Hi'. eapply positive_cp; eassumption.
  - destruct IC as (I1 & I2). split; cbn [ns_iu ns_ku ns_iv ns_kv]; [|assumption]. rewrite I1.
    destruct (ins_ends n _ _ k t r VU Hk T1 T2) as [-> ->]. reflexivity.
  - exact Vp.
  - exact Vn.
  - reflexivity.
  - reflexivity.
  - intros u v U1 U2 V1 V2 c Hc. rewrite !tensor_v. cbn [ns_ku ns_kv ns_du ns_dv ns_cps]. apply qsum_ext. intros j Hj. f_equal.
    rewrite <- (ins_sum1 n (ns_du s) (ns_ku s) k t r u (fun i => c (cp (ns_cps s) i j)) VU Hk T1 T2) by (split; assumption).
    apply qsum_ext. intros i Hi. f_equal. apply K; assumption.
Qed.

Lemma insert_v_sub s n m t r k : good_surf s n m -> positive_surf s -> 
  (ns_dv s <= k <= m)%nat -> knot (ns_kv s) k <= t -> t < knot (ns_kv s) (S k) ->
  separated (ns_kv s) t -> (r + multiplicity (ns_kv s) t <= ns_dv s)%nat ->
  exists s', ns_insert_v s t r = Ok s' /\ ns_ku s' = ns_ku s /\ ns_kv s' = ins_knots (ns_kv s) k t r /\
    sub_surf s' s n m n (m + r) (lo_u s) (hi_u s n) (lo_v s) (hi_v s m).
Proof.
  intros G W Hk T1 T2 SEP Hr. destruct (insert_v_ok s n m t r k G Hk T1 T2 SEP Hr) as (cps & iu & iv & E & Eiu & Eiv & L1 & L2 & K).
  pose proof G as (G1 & G2 & G3 & G4 & VU & VV & H8 & H8').
  destruct (inserted_valid m _ _ k t r VV Hk T1 T2) as (V' & Vp & Vn). fold (ins_knots (ns_kv s) k t r) in V', Vp, Vn.
  eexists. split; [exact E|]. split; [reflexivity|]. split; [reflexivity|].
  split; [|split; [reflexivity|split; [reflexivity|split; [|split; [|split; [|split; [|split; [|split]]]]]]]].
  - repeat split; cbn; try assumption; try apply V'; try apply VU; lia.
  - apply (cp_positive _ n (m + r)); cbn [ns_cps]; [assumption|assumption|]. intros i j Hi Hj. rewrite K by (try assumption; unfold comp4; auto).
    apply (pq_pos (knot (ns_kv s)) k (ns_dv s) t m); try assumption; try lia.
    + apply sorted_mono. apply VV.
    + intros i' Hi'. eapply positive_cp; eassumption.
  - subst iu iv. split; reflexivity.
  - reflexivity.
  - reflexivity.
  - exact Vp.
  - exact Vn.
  - intros u v U1 U2 V1 V2 c Hc. rewrite !tensor_u. cbn [ns_ku ns_kv ns_du ns_dv ns_cps]. apply qsum_ext. intros i Hi. f_equal.
    rewrite <- (ins_sum1 m (ns_dv s) (ns_kv s) k t r v (fun j => c (cp (ns_cps s) i j)) VV Hk T1 T2) by (split; assumption).
    apply qsum_ext. intros j Hj. f_equal. apply K; assumption.
Qed.

(** ** splitting *)
Lemma make_ok cps p q ku kv n m : length cps = S n -> (forall row, In row cps -> length row = S m) ->
  ku <> [] -> kv <> [] ->
  ns_make cps p q ku kv = Ok (NS p q (S n) (S m) (knot ku 0, knot ku (length ku - 1)) (knot kv 0, knot kv (length kv - 1)) cps ku kv
    (Box (v3all 0) (v3all 0)) aabb_default).
Proof.
  intros L1 L2 NU NV. unfold ns_make. destruct cps as [|row l]; [discriminate|].
  assert (length row = S m) as Lr by (apply L2; left; reflexivity).
  destruct row as [|x row]; [discriminate|].
  destruct ku as [|a ku]; [contradiction|]. destruct kv as [|b kv]; [contradiction|]. cbn [bind].
  unfold ns_update_interval. cbn [ns_ku ns_kv]. rewrite !range_ok by discriminate. cbn [bind ns_du ns_dv ns_su ns_sv ns_cps ns_bbox ns_aabb ns_ku ns_kv].
  rewrite L1, Lr. reflexivity.
Qed.

Lemma firstn_in {A} (l : list A) k x : In x (firstn k l) -> In x l.
Proof. intros H. rewrite <- (firstn_skipn k l). apply in_or_app. left; assumption. Qed.
Lemma skipn_in {A} (l : list A) k x : In x (skipn k l) -> In x l.
Proof. intros H. rewrite <- (firstn_skipn k l). apply in_or_app. right; assumption. Qed.

Lemma split_u_ok s n m t tol k : good_surf s n m -> positive_surf s -> intervals_current s -> (1 <= ns_du s)%nat ->
  at_edge t (ns_iu s) tol = false ->
  (ns_du s <= k <= n)%nat -> knot (ns_ku s) k <= t -> t < knot (ns_ku s) (S k) -> lo_u s < t ->
  separated (ns_ku s) t -> (multiplicity (ns_ku s) t <= ns_du s)%nat ->
  exists s1 s2 n1 n2, ns_split_u s t tol = Ok (s1, s2) /\ ns_kv s1 = ns_kv s /\ ns_kv s2 = ns_kv s /\
    ns_ku s1 = split_left (ns_ku s) (ns_du s) k t /\ ns_ku s2 = split_right (ns_ku s) (ns_du s) k t /\
    sub_surf s1 s n m n1 m (lo_u s) t (lo_v s) (hi_v s m) /\
    sub_surf s2 s n m n2 m t (hi_u s n) (lo_v s) (hi_v s m).
Proof.
  intros G W IC H1 HE Hk T1 T2 D1 SEP Hm. pose proof G as (G1 & G2 & G3 & G4 & VU & VV & H8 & H8').
  unfold ns_split_u. rewrite HE, G3. cbn [last_index surf_span].
  destruct (split_sums (ns_ku s) n (ns_du s) k t VU H1 Hk T1 T2 D1 Hm) as
    (Pa & Pe & Ps & Pt & VL & VR & KL1 & KL2 & KR1 & KR2 & VK & FS & FS0 & SL & SR).
  rewrite FS0. cbn [bind].
  rewrite find_multiplicity_spec by assumption.
  set (mu := multiplicity (ns_ku s) t) in *. set (r := (ns_du s - mu)%nat) in *. set (a := (k - mu)%nat) in *.
  destruct (Nat.ltb_spec (ns_du s) mu); [lia|].
  destruct (insert_u_ok s n m t r k G Hk T1 T2 SEP ltac:(fold mu; lia)) as (cps & E & L1 & L2 & K).
  destruct (insert_u_sub s n m t r k G W IC Hk T1 T2 SEP ltac:(fold mu; lia)) as (s' & E' & _ & _ & SUB).
  rewrite E in E'. injection E' as <-. rewrite E. cbn [bind ns_ku ns_su ns_cps]. cbn [Nat.add last_index surf_span].
  replace (S (n + r)) with (S (n + r)) by lia. 
  rewrite FS. cbn [bind].
  assert (length (ins_knots (ns_ku s) k t r) = (n + r + ns_du s + 2)%nat) as LK by apply VK.
  change 0%Z with (Z.of_nat 0). rewrite sub_vec_ok by lia. cbn [bind]. rewrite sub_vec_ok by lia. cbn [bind].
  replace (Z.of_nat k - Z.of_nat (ns_du s) + 1 + Z.of_nat r)%Z with (Z.of_nat (S a)) by lia.
  replace (Z.of_nat (S a) - 1)%Z with (Z.of_nat a) by lia.
  rewrite sub_vec_ok by lia. cbn [bind]. rewrite sub_vec_ok by lia. cbn [bind skipn]. rewrite !Nat.sub_0_r.
  rewrite (firstn_all2 (skipn (k + r + 1) _)) by (rewrite skipn_length; lia).
  rewrite (firstn_all2 (skipn a cps)) by (rewrite skipn_length; lia).
  change (firstn (k + r + 1) (ins_knots (ns_ku s) k t r) ++ [t]) with (split_left (ns_ku s) (ns_du s) k t).
  change (repeat t (ns_du s + 1) ++ skipn (k + r + 1) (ins_knots (ns_ku s) k t r)) with (split_right (ns_ku s) (ns_du s) k t).
  rewrite (make_ok (firstn (S a) cps) _ _ _ _ a m).
  2:{ rewrite firstn_length. lia. }
  2:{ intros row Hr. apply L2. eapply firstn_in; eassumption. }
  2:{ eapply valid_nonempty; eassumption. }
  2:{ eapply valid_nonempty; eassumption. }
  cbn [bind].
  rewrite (make_ok (skipn a cps) _ _ _ _ (n + r - a) m).
  2:{ rewrite skipn_length. lia. }
  2:{ intros row Hr. apply L2. eapply skipn_in; eassumption. }
  2:{ eapply valid_nonempty; eassumption. }
  2:{ eapply valid_nonempty; eassumption. }
  cbn [bind]. eexists _, _, a, (n + r - a)%nat. do 5 (split; [reflexivity|]).
  assert (t < hi_u s n) as D2.
  { pose proof (sorted_mono _ (proj1 (proj2 (proj2 VU)))) as M. assert (knot (ns_ku s) (S k) <= hi_u s n) by (apply M; lia). qc_lra. }
  destruct SUB as (_ & _ & _ & PW & _ & _ & _ & _ & _ & SUM).
  cbn [ns_ku ns_kv ns_du ns_dv] in *.
  split; (split; [|split; [reflexivity|split; [reflexivity|split; [|split; [|split; [|split; [|split; [|split]]]]]]]]).
  - split; [cbn [ns_cps]; rewrite firstn_length; lia|]. split; [intros row Hr; apply L2; eapply firstn_in; eassumption|]. auto 10.
  - intros row q Hr Hq. apply (PW row q); [eapply firstn_in; eassumption|assumption].
  - split; reflexivity.
  - exact KL1.
  - exact KL2.
  - reflexivity.
  - reflexivity.
  - intros u v U1 U2 V1 V2 c Hc. rewrite <- (SUM u v) by (assumption || (fold (hi_u s n); qc_lra)).
    rewrite !tensor_u. cbn [ns_ku ns_kv ns_du ns_dv ns_cps].
    pose proof (SL u (fun i => qsum (fun j => basis_at (ns_kv s) m (ns_dv s) v j * c (cp cps i j)) (S m)) U1 U2) as Q.
    rewrite <- Q. apply qsum_ext. intros i Hi. f_equal. unfold cp. rewrite nth_firstn_lt by assumption. reflexivity.
  - split; [cbn [ns_cps]; rewrite skipn_length; lia|]. split; [intros row Hr; apply L2; eapply skipn_in; eassumption|]. auto 10.
  - intros row q Hr Hq. apply (PW row q); [eapply skipn_in; eassumption|assumption].
  - split; reflexivity.
  - exact KR1.
  - exact KR2.
  - reflexivity.
  - reflexivity.
  - intros u v U1 U2 V1 V2 c Hc. rewrite <- (SUM u v) by (assumption || (fold (lo_u s) in *; qc_lra)).
    rewrite !tensor_u. cbn [ns_ku ns_kv ns_du ns_dv ns_cps].
    pose proof (SR u (fun i => qsum (fun j => basis_at (ns_kv s) m (ns_dv s) v j * c (cp cps i j)) (S m)) U1 U2) as Q.
    rewrite <- Q. apply qsum_ext. intros i Hi. f_equal. unfold cp. rewrite nth_skipn_add. reflexivity.
Qed.

Lemma split_v_ok s n m t tol k : good_surf s n m -> positive_surf s -> (1 <= ns_dv s)%nat ->
  at_edge t (ns_iv s) tol = false ->
  (ns_dv s <= k <= m)%nat -> knot (ns_kv s) k <= t -> t < knot (ns_kv s) (S k) -> lo_v s < t ->
  separated (ns_kv s) t -> (multiplicity (ns_kv s) t <= ns_dv s)%nat ->
  exists s1 s2 m1 m2, ns_split_v s t tol = Ok (s1, s2) /\ ns_ku s1 = ns_ku s /\ ns_ku s2 = ns_ku s /\
    ns_kv s1 = split_left (ns_kv s) (ns_dv s) k t /\ ns_kv s2 = split_right (ns_kv s) (ns_dv s) k t /\
    sub_surf s1 s n m n m1 (lo_u s) (hi_u s n) (lo_v s) t /\
    sub_surf s2 s n m n m2 (lo_u s) (hi_u s n) t (hi_v s m).
Proof.
  intros G W H1 HE Hk T1 T2 D1 SEP Hm. pose proof G as (G1 & G2 & G3 & G4 & VU & VV & H8 & H8').
  unfold ns_split_v. rewrite HE, G4. cbn [last_index surf_span].
  destruct (split_sums (ns_kv s) m (ns_dv s) k t VV H1 Hk T1 T2 D1 Hm) as
    (Pa & Pe & Ps & Pt & VL & VR & KL1 & KL2 & KR1 & KR2 & VK & FS & FS0 & SL & SR).
  rewrite FS0. cbn [bind].
  rewrite find_multiplicity_spec by assumption.
  set (mu := multiplicity (ns_kv s) t) in *. set (r := (ns_dv s - mu)%nat) in *. set (a := (k - mu)%nat) in *.
  destruct (Nat.ltb_spec (ns_dv s) mu); [lia|].
  destruct (insert_v_ok s n m t r k G Hk T1 T2 SEP ltac:(fold mu; lia)) as (cps & iu & iv & E & _ & _ & L1 & L2 & K).
  destruct (insert_v_sub s n m t r k G W Hk T1 T2 SEP ltac:(fold mu; lia)) as (s' & E' & _ & _ & SUB).
  rewrite E in E'. injection E' as <-. rewrite E. cbn [bind ns_kv ns_sv ns_cps]. cbn [Nat.add last_index surf_span].
  rewrite FS. cbn [bind].
  assert (length (ins_knots (ns_kv s) k t r) = (m + r + ns_dv s + 2)%nat) as LK by apply VK.
  change 0%Z with (Z.of_nat 0). rewrite sub_vec_ok by lia. cbn [bind]. rewrite sub_vec_ok by lia. cbn [bind].
  replace (Z.of_nat k - Z.of_nat (ns_dv s) + 1 + Z.of_nat r)%Z with (Z.of_nat (S a)) by lia.
  replace (Z.of_nat (S a) - 1)%Z with (Z.of_nat a) by lia.
  assert (forall i, (i < S n)%nat -> length (nth i cps []) = (S m + r)%nat) as HR by (intros; apply L2; apply nth_In; lia).
  rewrite G3.
  rewrite (mapM_map _ (fun i => firstn (S a) (nth i cps []))).
  2:{ intros i Hi. apply in_seq in Hi. rewrite (get_ok _ _ []) by lia. cbn [bind]. rewrite sub_vec_ok by (rewrite ?HR; lia). cbn [skipn]. rewrite Nat.sub_0_r. reflexivity. }
  cbn [bind].
  rewrite (mapM_map _ (fun i => skipn a (nth i cps []))).
  2:{ intros i Hi. apply in_seq in Hi. rewrite (get_ok _ _ []) by lia. cbn [bind]. rewrite sub_vec_ok by (rewrite ?HR; lia).
      rewrite firstn_all2 by (rewrite skipn_length; lia). reflexivity. }
  cbn [bind skipn]. rewrite !Nat.sub_0_r.
  rewrite (firstn_all2 (skipn (k + r + 1) _)) by (rewrite skipn_length; lia).
  change (firstn (k + r + 1) (ins_knots (ns_kv s) k t r) ++ [t]) with (split_left (ns_kv s) (ns_dv s) k t).
  change (repeat t (ns_dv s + 1) ++ skipn (k + r + 1) (ins_knots (ns_kv s) k t r)) with (split_right (ns_kv s) (ns_dv s) k t).
  assert (forall row, In row (map (fun i => firstn (S a) (nth i cps [])) (seq 0 (S n))) -> length row = S a) as R1.
  { intros row Hr. apply in_map_iff in Hr. destruct Hr as (i & <- & Hi). apply in_seq in Hi. rewrite firstn_length, HR by lia. lia. }
  assert (forall row, In row (map (fun i => skipn a (nth i cps [])) (seq 0 (S n))) -> length row = S (m + r - a)) as R2.
  { intros row Hr. apply in_map_iff in Hr. destruct Hr as (i & <- & Hi). apply in_seq in Hi. rewrite skipn_length, HR by lia. lia. }
  rewrite (make_ok _ _ _ _ _ n a).
  2:{ rewrite map_length, seq_length. reflexivity. }
  2:{ exact R1. }
  2:{ eapply valid_nonempty; eassumption. }
  2:{ eapply valid_nonempty; eassumption. }
  cbn [bind].
  rewrite (make_ok _ _ _ _ _ n (m + r - a)).
  2:{ rewrite map_length, seq_length. reflexivity. }
  2:{ exact R2. }
  2:{ eapply valid_nonempty; eassumption. }
  2:{ eapply valid_nonempty; eassumption. }
  cbn [bind]. eexists _, _, a, (m + r - a)%nat. do 5 (split; [reflexivity|]).
  assert (t < hi_v s m) as D2.
  { pose proof (sorted_mono _ (proj1 (proj2 (proj2 VV)))) as M. assert (knot (ns_kv s) (S k) <= hi_v s m) by (apply M; lia). qc_lra. }
  destruct SUB as (_ & _ & _ & PW & _ & _ & _ & _ & _ & SUM).
  cbn [ns_ku ns_kv ns_du ns_dv] in *.
  split; (split; [|split; [reflexivity|split; [reflexivity|split; [|split; [|split; [|split; [|split; [|split]]]]]]]]).
  - split; [cbn [ns_cps]; rewrite map_length, seq_length; reflexivity|]. split; [exact R1|]. auto 10.
  - intros row q Hr Hq. cbn [ns_cps] in Hr. apply in_map_iff in Hr. destruct Hr as (i & <- & Hi). apply in_seq in Hi.
    apply (PW (nth i cps []) q); [cbn [ns_cps]; apply nth_In; rewrite L1; lia|eapply firstn_in; eassumption].
  - split; reflexivity.
  - reflexivity.
  - reflexivity.
  - exact KL1.
  - exact KL2.
  - intros u v U1 U2 V1 V2 c Hc. rewrite <- (SUM u v) by (assumption || (fold (hi_v s m); qc_lra)).
    rewrite !tensor_v. cbn [ns_ku ns_kv ns_du ns_dv ns_cps].
    pose proof (SL v (fun j => qsum (fun i => basis_at (ns_ku s) n (ns_du s) u i * c (cp cps i j)) (S n)) V1 V2) as Q.
    rewrite <- Q. apply qsum_ext. intros j Hj. f_equal. apply qsum_ext. intros i Hi. f_equal.
    unfold cp. rewrite nth_map_seq by assumption. rewrite nth_firstn_lt by assumption. reflexivity.
  - split; [cbn [ns_cps]; rewrite map_length, seq_length; reflexivity|]. split; [exact R2|]. auto 10.
  - intros row q Hr Hq. cbn [ns_cps] in Hr. apply in_map_iff in Hr. destruct Hr as (i & <- & Hi). apply in_seq in Hi.
    apply (PW (nth i cps []) q); [cbn [ns_cps]; apply nth_In; rewrite L1; lia|eapply skipn_in; eassumption].
  - split; reflexivity.
  - reflexivity.
  - reflexivity.
  - exact KR1.
  - exact KR2.
  - intros u v U1 U2 V1 V2 c Hc. rewrite <- (SUM u v) by (assumption || (fold (lo_v s) in *; qc_lra)).
    rewrite !tensor_v. cbn [ns_ku ns_kv ns_du ns_dv ns_cps].
    pose proof (SR v (fun j => qsum (fun i => basis_at (ns_ku s) n (ns_du s) u i * c (cp cps i j)) (S n)) V1 V2) as Q.
    rewrite <- Q. apply qsum_ext. intros j Hj. f_equal. apply qsum_ext. intros i Hi. f_equal.
    unfold cp. rewrite nth_map_seq by assumption. rewrite nth_skipn_add. reflexivity.
Qed.
