(** insert_knot: the whole member function. *)
From Coq Require Import List ZArith QArith Qcanon Bool Lia Lqa Field.
From Verif Require Import Base BaseFacts LoopFacts ModelVec ModelAabb ModelNurbs SpecNurbs ProofBspline ProofInsertion ProofNurbs ProofInsertCurve.
Import ListNotations.
Open Scope Qc_scope.

(** ** multiplicity *)
Lemma find_mult_fold t l m :
  fold_left (fun m kv => if Qcleb (Qcabs (t - kv)%Qc) lit_1em12 then S m else m) l m =
  (m + fold_left (fun m kv => if Qcleb (Qcabs (t - kv)%Qc) lit_1em12 then S m else m) l 0)%nat.
Proof.
  revert m. induction l as [|a l IH]; intros m; cbn [fold_left]; [lia|].
  rewrite IH. symmetry. rewrite IH. destruct (Qcabs (t - a) <=? lit_1em12); lia.
Qed.

Lemma abs_sep t x : (x = t \/ tol12 < x - t \/ tol12 < t - x) -> (Qcabs (t - x) <=? lit_1em12) = (t =? x).
Proof.
  change tol12 with lit_1em12. intros H. unfold Qcabs. destruct (Qceqb_spec t x) as [E|E].
  - subst x. replace (t - t) with 0 by ring. reflexivity.
  - destruct H as [H|H]; [congruence|]. qcb. destruct (Qcltb_spec (t - x) 0); destruct H; try qc_lra.
Qed.

Lemma find_multiplicity_spec t U : separated U t -> find_multiplicity t U = multiplicity U t.
Proof.
  unfold find_multiplicity, multiplicity, separated. induction U as [|a U IH]; intros H; [reflexivity|].
  cbn [fold_left filter]. rewrite find_mult_fold. rewrite IH by (intros; apply H; right; assumption).
  rewrite abs_sep by (apply H; left; reflexivity).
  destruct (t =? a); cbn; reflexivity.
Qed.

Lemma last_below (f : nat -> Qc) t m : mono f -> (forall i, (i < m)%nat -> f i <= t) ->
  exists a, (a <= m)%nat /\ (forall i, (i < a)%nat -> f i < t) /\ (forall i, (a <= i < m)%nat -> f i = t).
Proof.
  intros M. induction m; intros H.
  - exists 0%nat. split; [lia|]. split; intros; lia.
  - destruct (Qceqb_spec (f m) t) as [E|E].
    + destruct IHm as (a & A & B & C); [intros; apply H; lia|].
      exists a. split; [lia|]. split; [assumption|]. intros i Hi. destruct (Nat.eq_dec i m) as [->|]; [assumption|]. apply C. lia.
    + exists (S m). split; [lia|]. split; [|intros; lia].
      intros i Hi. assert (f i <= f m) by (apply M; lia). assert (f m <= t) by (apply H; lia).
      destruct (Qc_neq_or _ _ E); qc_lra.
Qed.

Lemma filter_none {A} (f : A -> bool) l : (forall x, In x l -> f x = false) -> filter f l = [].
Proof. induction l as [|a l IH]; intros H; [reflexivity|]. cbn. rewrite H by (left; reflexivity). apply IH. intros; apply H; right; assumption. Qed.
Lemma filter_all {A} (f : A -> bool) l : (forall x, In x l -> f x = true) -> filter f l = l.
Proof. induction l as [|a l IH]; intros H; [reflexivity|]. cbn. rewrite H by (left; reflexivity). f_equal. apply IH. intros; apply H; right; assumption. Qed.

Lemma multiplicity_span U k t : sorted U -> (S k < length U)%nat -> knot U k <= t -> t < knot U (S k) ->
  let s := multiplicity U t in
  (s <= S k)%nat /\ (forall i, (i < S k - s)%nat -> knot U i < t) /\ (forall i, (S k - s <= i <= k)%nat -> knot U i = t).
Proof.
  intros HS HL H1 H2 s. pose proof (sorted_mono U HS) as M.
  destruct (last_below (knot U) t (S k) M) as (a & A & B & C).
  { intros i Hi. assert (knot U i <= knot U k) by (apply M; lia). qc_lra. }
  assert (s = S k - a)%nat as Es.
  { unfold s, multiplicity. rewrite <- (firstn_skipn (S k) U). rewrite filter_app, app_length.
    rewrite (filter_none _ (skipn (S k) U)).
    2:{ intros x Hx. destruct (In_nth _ _ 0 Hx) as (j & Hj & Ej). rewrite skipn_length in Hj. rewrite nth_skipn_add in Ej.
        rewrite <- knot_nth in Ej by lia. assert (knot U (S k) <= knot U (S k + j)) by (apply M; lia). qcb.
        intros F. rewrite <- Ej in F. qc_lra. }
    rewrite <- (firstn_skipn a (firstn (S k) U)). rewrite filter_app, app_length.
    rewrite (filter_none _ (firstn a (firstn (S k) U))).
    2:{ intros x Hx. destruct (In_nth _ _ 0 Hx) as (j & Hj & Ej). rewrite !firstn_length in Hj.
        rewrite !nth_firstn_lt in Ej by lia. rewrite <- knot_nth in Ej by lia. qcb. intros F.
        assert (knot U j < t) by (apply B; lia). qc_lra. }
    rewrite filter_all.
    2:{ intros x Hx. destruct (In_nth _ _ 0 Hx) as (j & Hj & Ej). rewrite skipn_length, firstn_length in Hj.
        rewrite nth_skipn_add, nth_firstn_lt in Ej by lia. rewrite <- knot_nth in Ej by lia. qcb.
        rewrite <- Ej. symmetry. apply C. lia. }
    cbn [length]. rewrite skipn_length, firstn_length. lia. }
  rewrite Es. split; [lia|]. split.
  - intros i Hi. apply B. lia.
  - intros i Hi. apply C. lia.
Qed.

(** ** the interval *)
Lemma fold_min_sorted l a : (forall x, In x l -> a <= x) -> fold_left Qcmin l a = a.
Proof.
  revert a. induction l as [|b l IH]; intros a H; [reflexivity|]. cbn [fold_left].
  assert (a <= b) by (apply H; left; reflexivity).
  assert (Qcmin a b = a) as ->. { unfold Qcmin. destruct (Qcltb_spec b a); [exfalso; qc_lra|reflexivity]. }
  apply IH. intros; apply H; right; assumption.
Qed.
Lemma fold_max_in l : forall a m, (forall x, In x (a :: l) -> x <= m) -> In m (a :: l) -> fold_left Qcmax l a = m.
Proof.
  induction l as [|b l IH]; intros a m H HI; cbn [fold_left].
  - destruct HI as [->|[]]. reflexivity.
  - assert (a <= m) by (apply H; left; reflexivity). assert (b <= m) by (apply H; right; left; reflexivity).
    apply IH.
    + intros x [<-|Hx]; [|apply H; right; right; assumption]. unfold Qcmax. destruct (a <? b); assumption.
    + unfold Qcmax. destruct (Qcltb_spec a b) as [L|L].
      * destruct HI as [->|[->|HI]]; [exfalso; qc_lra|left; reflexivity|right; assumption].
      * destruct HI as [->|[->|HI]]; [left; reflexivity|left; apply Qcle_antisym; qc_lra|right; assumption].
Qed.

Lemma interval_sorted U : sorted U -> U <> [] ->
  min_of U = Ok (knot U 0) /\ max_of U = Ok (knot U (length U - 1)).
Proof.
  intros HS NE. pose proof (sorted_mono _ HS) as M.
  destruct U as [|a l]; [contradiction|]. unfold min_of, max_of. split; f_equal.
  - rewrite fold_min_sorted; [reflexivity|]. intros x Hx.
    destruct (In_nth _ _ 0 Hx) as (j & Hj & <-).
    change (nth j l 0) with (nth (S j) (a :: l) 0). rewrite <- knot_nth by (cbn; lia).
    change a with (nth 0 (a :: l) 0) at 1. rewrite <- knot_nth by (cbn; lia). apply M. lia.
  - apply fold_max_in.
    + intros x Hx. destruct (In_nth _ _ 0 Hx) as (j & Hj & <-). rewrite <- knot_nth by assumption. apply M. lia.
    + rewrite knot_nth by (cbn; lia). apply nth_In. cbn; lia.
Qed.

Lemma update_interval_sorted c : sorted (nc_knots c) -> nc_knots c <> [] ->
  update_interval c = Ok (nc_set_interval c (knot (nc_knots c) 0, knot (nc_knots c) (length (nc_knots c) - 1))).
Proof.
  intros HS NE. unfold update_interval. destruct (interval_sorted _ HS NE) as [-> ->]. reflexivity.
Qed.

Lemma span_unique U s s' t : mono U -> U s <= t -> t < U (S s) -> U s' <= t -> t < U (S s') -> s = s'.
Proof.
  intros M A B C D. destruct (Nat.lt_trichotomy s s') as [H|[H|H]]; [|assumption|].
  - assert (U (S s) <= U s') by (apply M; lia). exfalso. qc_lra.
  - assert (U (S s') <= U s) by (apply M; lia). exfalso. qc_lra.
Qed.

(** find_span below the end of the domain, with any bound behind the span *)
Lemma find_span_at m p U k t : mono (knot U) -> (m < length U)%nat -> (p <= k)%nat -> (k <= m)%nat ->
  knot U k <= t -> t < knot U (S k) -> find_span m p t U = Ok k.
Proof.
  intros M HL Hp Hk A B. unfold find_span.
  destruct (span_loop_spec U t m (S m) (p + 1)) as (x & E & F & G & H); [lia|lia|lia|].
  rewrite E. cbn [bind]. f_equal.
  assert (x <= S k)%nat.
  { destruct (Nat.le_gt_cases x (S k)); [assumption|]. exfalso.
    assert (knot U (S k) <= t) by (apply G; lia). qc_lra. }
  destruct H as [->|H]; [lia|].
  destruct (Nat.eq_dec x (S k)); [lia|]. exfalso. assert (knot U x <= knot U k) by (apply M; lia). qc_lra.
Qed.

Lemma domain_span n p U t : valid_knots n p U -> knot U p <= t -> t < knot U (n + 1) ->
  exists k, (p <= k <= n)%nat /\ knot U k <= t /\ t < knot U (S k).
Proof.
  intros V A B. destruct (find_span_spec n p U t V) as (k & _ & Hk & IS & I1 & I2); [split; [assumption|qc_lra]|].
  exists k. split; [lia|]. split; [assumption|]. destruct I2 as [I2|[-> I2]]; [assumption|].
  rewrite Nat.add_1_r in B. exfalso. qc_lra.
Qed.

(** ** insert_knot *)
Lemma insert_knot_ok c n t r k :
  length (nc_cps c) = S n -> valid_knots n (nc_degree c) (nc_knots c) -> (nc_degree c <= 8)%nat ->
  (nc_degree c <= k <= n)%nat -> knot (nc_knots c) k <= t -> t < knot (nc_knots c) (S k) ->
  separated (nc_knots c) t -> (r + multiplicity (nc_knots c) t <= nc_degree c)%nat ->
  exists cps kv iv, insert_knot c t r = Ok (nc_set_interval (nc_set_knots (nc_set_cps c cps) kv) iv) /\
    kv = firstn (k + 1) (nc_knots c) ++ repeat t r ++ skipn (k + 1) (nc_knots c) /\
    iv = (knot (nc_knots c) 0, knot (nc_knots c) (length (nc_knots c) - 1)) /\
    length cps = (S n + r)%nat /\
    forall i, (i < S n + r)%nat -> forall f, comp4 f ->
      f (nth i cps d4) = pq (knot (nc_knots c)) k (nc_degree c) t (fun i => f (nth i (nc_cps c) d4)) r i.
Proof.
  intros HP V H8 Hk T1 T2 SEP Hr. pose proof V as (Hpn & HL & HS & HN).
  set (U := nc_knots c) in *. set (p := nc_degree c) in *. set (P := nc_cps c) in *.
  pose proof (sorted_mono U HS) as M.
  destruct (multiplicity_span U k t HS ltac:(lia) T1 T2) as (S1 & S2 & S3).
  unfold insert_knot. fold P U p. rewrite HP. replace (S n - 1)%nat with n by lia.
  rewrite (find_span_at n p U k t M) by (lia || assumption). cbn [bind].
  rewrite kv_spec by lia. cbn [bind]. rewrite find_multiplicity_spec by assumption.
  destruct (for_up_inv (fun _ (l : list vec4) => length l = (S n + r)%nat)
     (fun i cp => set_nth cp i (v4sub_scalar (last P v4zero) (Qc_of_nat i))) (r + 1) 0 (resize P (S n + r))) as (cp0 & E0 & L0).
  { apply resize_length. }
  { intros i l _ Hi Hl. destruct (set_nth_ok l i (v4sub_scalar (last P v4zero) (Qc_of_nat i))) as (l' & E & L & _); [lia|].
    exists l'. split; [exact E|lia]. }
  rewrite E0. cbn [bind].
  destruct (knot_insertion_spec U P k p (multiplicity U t) r n t) with (new0 := cp0) as (new & E1 & L1 & G1);
    try assumption; try lia.
  { intros i Hi. apply S3. lia. }
  rewrite E1. cbn [bind].
  set (kv := firstn (k + 1) U ++ repeat t r ++ skipn (k + 1) U).
  assert (forall i, knot kv i = insr (knot U) k t r i) as KV by (intros; apply kv_knot; lia).
  assert (length kv = length U + r)%nat as LK.
  { unfold kv. rewrite !app_length, repeat_length, firstn_length, skipn_length. lia. }
  assert (sorted kv) as SK.
  { apply mono_sorted. eapply mono_ext; [intros; symmetry; apply KV|]. apply insr_mono; assumption. }
  rewrite update_interval_sorted; cbn [nc_knots nc_set_knots nc_set_cps].
  2:{ exact SK. }
  2:{ intros E. apply (f_equal (@length Qc)) in E. rewrite LK in E. cbn in E. lia. }
  exists new, kv, (knot U 0, knot U (length U - 1)). split.
  - rewrite !KV. rewrite insr_lo by lia. rewrite LK. rewrite (insr_hi _ _ _ r _ (length U - 1)) by lia. reflexivity.
  - split; [reflexivity|]. split; [reflexivity|]. split; [lia|]. exact G1.
Qed.

(** sums over the basis are preserved, component by component *)
Lemma insert_knot_sums c n t r k cps kv u (f : vec4 -> Qc) :
  length (nc_cps c) = S n -> valid_knots n (nc_degree c) (nc_knots c) ->
  (nc_degree c <= k <= n)%nat -> knot (nc_knots c) k <= t -> t < knot (nc_knots c) (S k) ->
  kv = firstn (k + 1) (nc_knots c) ++ repeat t r ++ skipn (k + 1) (nc_knots c) ->
  (forall i, (i < S n + r)%nat ->
      f (nth i cps d4) = pq (knot (nc_knots c)) k (nc_degree c) t (fun i => f (nth i (nc_cps c) d4)) r i) ->
  in_domain n (nc_degree c) (nc_knots c) u ->
  qsum (fun i => basis_at kv (n + r) (nc_degree c) u i * f (nth i cps d4)) (S (n + r)) =
  qsum (fun i => basis_at (nc_knots c) n (nc_degree c) u i * f (nth i (nc_cps c) d4)) (S n).
Proof.
  intros HP V Hk T1 T2 -> G D. pose proof V as (Hpn & HL & HS & HN). pose proof D as (D1 & D2).
  set (U := nc_knots c) in *. set (p := nc_degree c) in *. set (P := nc_cps c) in *.
  pose proof (sorted_mono U HS) as M.
  destruct (find_span_spec n p U u V D) as (s & _ & Hs & IS).
  pose proof (valid_span_ok _ _ _ _ _ V IS) as SO.
  destruct (insr_span (knot U) k t M T1 T2 r n s u) as (s' & A & B & C); [lia|assumption|assumption|].
  assert (forall i, knot (firstn (k + 1) U ++ repeat t r ++ skipn (k + 1) U) i = insr (knot U) k t r i) as KV by (intros; apply kv_knot; lia).
  rewrite (qsum_ext (fun i => basis_at U n p u i * f (nth i P d4)) (fun i => bsp (knot U) s p i u * f (nth i P d4))).
  2:{ intros i _. rewrite (basis_at_bsp n p U u s) by assumption. reflexivity. }
  rewrite (C p (fun i => f (nth i P d4))) by lia.
  apply qsum_ext. intros i Hi. rewrite G by lia. f_equal. unfold basis_at.
  rewrite (bspline_bsp _ _ _ _ _ s').
  - apply bsp_ext. assumption.
  - apply is_span_pick.
    + eapply mono_ext; [intros; symmetry; apply KV|]. apply insr_mono; assumption.
    + eapply is_span_ext; [intros; symmetry; apply KV|]. assumption.
    + rewrite KV. rewrite (insr_hi _ _ _ r _ (S n)) by lia. rewrite <- (Nat.add_1_r n). assumption.
Qed.

Lemma inserted_valid n p U k t r : valid_knots n p U -> (p <= k <= n)%nat -> knot U k <= t -> t < knot U (S k) ->
  let kv := firstn (k + 1) U ++ repeat t r ++ skipn (k + 1) U in
  valid_knots (n + r) p kv /\ knot kv p = knot U p /\ knot kv (n + r + 1) = knot U (n + 1).
Proof.
  intros V Hk T1 T2 kv. pose proof V as (Hpn & HL & HS & HN). pose proof (sorted_mono U HS) as M.
  assert (forall i, knot kv i = insr (knot U) k t r i) as KV by (intros; apply kv_knot; lia).
  split; [|split].
  - split; [lia|]. split; [|split].
    + unfold kv. rewrite !app_length, repeat_length, firstn_length, skipn_length. lia.
    + apply mono_sorted. eapply mono_ext; [intros; symmetry; apply KV|]. apply insr_mono; assumption.
    + rewrite !KV. rewrite (insr_hi _ _ _ r (n + r + 1) (n + 1)) by lia.
      destruct (Nat.eq_dec n k) as [->|].
      * rewrite <- (Nat.add_1_r k) in T2. destruct (Nat.eq_dec r 0) as [->|].
        -- rewrite insr_lo by lia. rewrite Nat.add_0_r. qc_lra.
        -- rewrite insr_mid by lia. assumption.
      * rewrite (insr_hi _ _ _ r (n + r) n) by lia. assumption.
  - rewrite KV. apply insr_lo. lia.
  - rewrite KV. apply insr_hi; lia.
Qed.
