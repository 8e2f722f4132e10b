(** The nearest neighbour in double arithmetic. *)
From Coq Require Import List ZArith QArith Qcanon Permutation Bool Lia Lqa.
From Verif Require Import Base BaseFacts ModelVec ModelKd ModelRoundKd SpecKd SpecRound SpecRoundKd ProofKd ProofRound ProofRoundDouble ProofRoundHull ProofRoundFull.
Import ListNotations.
Open Scope Qc_scope.

Lemma ext_refl a : ext_le a a. Proof. destruct a; cbn; [apply Qcle_refl|exact I]. Qed.
Lemma ext_trans a b c : ext_le a b -> ext_le b c -> ext_le a c.
Proof. destruct a, b, c; cbn; try tauto. apply Qcle_trans. Qed.
Lemma flt_true a b : flt a b = true -> ext_le a b.
Proof. destruct a, b; cbn; try tauto; try discriminate. intros H. qcb. apply Qclt_le_weak. exact H. Qed.
Lemma flt_false a b : flt a b = false -> ext_le b a.
Proof. destruct a, b; cbn; try tauto; try discriminate. intros H. qcb. exact H. Qed.

Lemma sq_le a b : Qcabs a <= Qcabs b -> a * a <= b * b.
Proof.
  intros H. assert (forall z, z * z = Qcabs z * Qcabs z) as E by (intros z; apply (Qcabs_case z (fun w => z * z = w * w)); intros; ring).
  rewrite (E a), (E b). pose proof (Qcabs_nonneg a). revert H H0. generalize (Qcabs a), (Qcabs b). intros. qc_nra.
Qed.
Lemma unbounded_nonneg x : 0 <= x -> 0 <= unbounded x.
Proof. intros H. rewrite <- unbounded_0. apply unbounded_mono, H. Qed.
Lemma unbounded_nonpos x : x <= 0 -> unbounded x <= 0.
Proof. intros H. rewrite <- unbounded_0. apply unbounded_mono, H. Qed.

Section Doubles.
Variable fl : nat -> Qc -> option Qc.
Hypothesis FL : in_all_doubles fl.

Lemma fl_full x y : 0 <= x -> x <= y -> ext_le (round_full x) (round_full y).
Proof.
  intros A B. pose proof (unbounded_mono x y B) as M. pose proof (unbounded_nonneg x A) as N. unfold round_full.
  assert (Qcabs (unbounded x) <= Qcabs (unbounded y)) as L by (do 2 (apply Qcabs_case; intros); qc_lra).
  destruct (Qcltb (Qcabs (unbounded x)) (p2 1024)) eqn:E, (Qcltb (Qcabs (unbounded y)) (p2 1024)) eqn:F; cbn; try tauto. qcb. qc_lra.
Qed.
Lemma fl_mono k x y : 0 <= x -> x <= y -> ext_le (fl k x) (fl k y).
Proof. intros A B. destruct (proj2 FL k) as [H|H]; rewrite !H; [apply fl_full; assumption|exact B]. Qed.
Lemma full_some x y : round_full x = Some y -> y = unbounded x /\ round_full y = Some y.
Proof.
  unfold round_full. destruct (Qcltb _ _) eqn:E; [|discriminate]. intros H. injection H as <-. split; [reflexivity|].
  rewrite (unbounded_id _ (unbounded_dbl x)), E. reflexivity.
Qed.
Lemma fl_nonneg k x y : 0 <= x -> fl k x = Some y -> 0 <= y.
Proof.
  intros A. destruct (proj2 FL k) as [H|H]; rewrite H; intros E; [|injection E as <-; exact A].
  apply full_some in E. destruct E as (-> & _). apply unbounded_nonneg, A.
Qed.
(** the sum of a rounded number and something is no less than that number *)
Lemma fplus_l k x b : 0 <= x -> (forall y, b = Some y -> 0 <= y) -> ext_le (fl 0 x) (fplus fl (fl k x) b).
Proof.
  intros A B. destruct (fl k x) as [w|] eqn:E; [|destruct (fl 0%nat x); exact I]. destruct b as [y|]; [|destruct (fl 0%nat x); exact I]. cbn [fplus]. specialize (B y eq_refl).
  pose proof (fl_nonneg k x w A E) as W. destruct (proj2 FL k) as [H|H].
  - rewrite H in E. rewrite (proj1 FL x), E. apply full_some in E. destruct E as (_ & <-). rewrite <- (proj1 FL w). apply fl_mono; [exact W|qc_lra].
  - rewrite H in E. injection E as ->. apply fl_mono; [exact A|qc_lra].
Qed.
Lemma fplus_comm a b : fplus fl a b = fplus fl b a.
Proof. destruct a, b; cbn; try reflexivity. f_equal. ring. Qed.
Lemma fsq_nonneg k d y : fsq fl k d = Some y -> 0 <= y.
Proof. destruct d as [x|]; [|discriminate]. cbn. apply fl_nonneg, Qc_sq_nonneg. Qed.
Lemma fplus_nonneg a b y : (forall z, a = Some z -> 0 <= z) -> (forall z, b = Some z -> 0 <= z) -> fplus fl a b = Some y -> 0 <= y.
Proof.
  intros A B. destruct a as [x|]; [|discriminate]. destruct b as [z|]; [|discriminate]. cbn. specialize (A x eq_refl). specialize (B z eq_refl).
  apply fl_nonneg. qc_lra.
Qed.
Lemma fsq_l k d b : (forall y, b = Some y -> 0 <= y) -> ext_le (fsq fl 0 d) (fplus fl (fsq fl k d) b).
Proof. intros B. destruct d as [x|]; [|exact I]. apply fplus_l; [apply Qc_sq_nonneg|exact B]. Qed.
(** a sum that has been rounded already *)
Lemma fplus_up a b c : (forall y, a = Some y -> 0 <= y) -> (forall y, b = Some y -> 0 <= y) -> (forall y, c = Some y -> 0 <= y) ->
  ext_le (fplus fl a b) (fplus fl (fplus fl a b) c).
Proof.
  intros A B C. destruct a as [x|]; [|exact I]. destruct b as [y|]; [|exact I]. specialize (A x eq_refl). specialize (B y eq_refl).
  change (fplus fl (Some x) (Some y)) with (fl 0%nat (x + y)). apply (fplus_l 0 (x + y) c); [qc_lra|exact C].
Qed.

Lemma axis_le t q ax : ext_le (fsq fl 0 (fl 0 (coord t ax - coord q ax))) (fdist_sq3 fl t q).
Proof.
  unfold fdist_sq3. pose proof (fsq_nonneg 11 (fl 0 (vx t - vx q))) as N1. pose proof (fsq_nonneg 12 (fl 0 (vy t - vy q))) as N2. pose proof (fsq_nonneg 13 (fl 0 (vz t - vz q))) as N3.
  destruct ax; cbn [coord].
  - eapply ext_trans; [|apply fplus_up; assumption]. apply fsq_l. exact N2.
  - eapply ext_trans; [|apply fplus_up; assumption]. rewrite fplus_comm. apply fsq_l. exact N1.
  - rewrite fplus_comm. apply fsq_l. intros y. apply fplus_nonneg; assumption.
Qed.

Lemma away a b c : (a <= b /\ b <= c) \/ (c <= b /\ b <= a) -> ext_le (fsq fl 0 (fl 0 (a - b))) (fsq fl 0 (fl 0 (a - c))).
Proof.
  intros H. rewrite !(proj1 FL). unfold round_full.
  assert (Qcabs (unbounded (a - b)) <= Qcabs (unbounded (a - c))) as L.
  { destruct H as [[A B]|[A B]].
    - assert (unbounded (a - c) <= unbounded (a - b)) by (apply unbounded_mono; qc_lra). assert (unbounded (a - b) <= 0) by (apply unbounded_nonpos; qc_lra).
      do 2 (apply Qcabs_case; intros); qc_lra.
    - assert (unbounded (a - b) <= unbounded (a - c)) by (apply unbounded_mono; qc_lra). assert (0 <= unbounded (a - b)) by (apply unbounded_nonneg; qc_lra).
      do 2 (apply Qcabs_case; intros); qc_lra. }
  destruct (Qcltb (Qcabs (unbounded (a - b))) (p2 1024)) eqn:E, (Qcltb (Qcabs (unbounded (a - c))) (p2 1024)) eqn:F; cbn [fsq].
  - apply fl_mono; [apply Qc_sq_nonneg|apply sq_le, L].
  - destruct (fl _ _); exact I.
  - qcb. qc_lra.
  - exact I.
Qed.

Definition fnn_ok (target : vec3) (cands : list vec3) (s : vec3 * option Qc) : Prop :=
  In (fst s) cands /\ snd s = fdist_sq3 fl target (fst s).

Lemma fnn_spec target t : kd_ok t -> forall s cands,
  fnn_ok target cands s ->
  let s' := fnearestRec fl t target s in
  fnn_ok target (cands ++ elems t) s' /\ ext_le (snd s') (snd s) /\
  forall q, In q (elems t) -> ext_le (snd s') (fdist_sq3 fl target q).
Proof.
  induction t as [|p ax l IHl r IHr]; intros Hok s cands Hs.
  - cbn. rewrite app_nil_r. split; [exact Hs|]. split; [apply ext_refl | intros ? []].
  - destruct Hok as (Hl & Hr & Kl & Kr). cbn [fnearestRec elems].
    set (d := fdist_sq3 fl target p).
    set (s1 := if flt d (snd s) then (p, d) else s).
    assert (H1 : fnn_ok target (cands ++ [p]) s1 /\ ext_le (snd s1) (snd s) /\ ext_le (snd s1) d).
    { unfold s1. destruct (flt d (snd s)) eqn:E.
      - split; [|split; cbn [snd]; [apply flt_true; exact E | apply ext_refl]]. split; [|reflexivity].
        apply in_or_app. right. left. reflexivity.
      - split; [|split; [apply ext_refl | apply flt_false; exact E]]. destruct Hs as [Hi He]. split; [|assumption].
        apply in_or_app. left. assumption. }
    destruct H1 as (N1 & L1 & D1). clearbody s1.
    set (g := fsq fl 0 (fl 0%nat (coord target ax - coord p ax))).
    assert (Hgen : forall near far, kd_ok near -> kd_ok far ->
      (forall s cands, fnn_ok target cands s ->
         let s' := fnearestRec fl near target s in
         fnn_ok target (cands ++ elems near) s' /\ ext_le (snd s') (snd s) /\
         forall q, In q (elems near) -> ext_le (snd s') (fdist_sq3 fl target q)) ->
      (forall s cands, fnn_ok target cands s ->
         let s' := fnearestRec fl far target s in
         fnn_ok target (cands ++ elems far) s' /\ ext_le (snd s') (snd s) /\
         forall q, In q (elems far) -> ext_le (snd s') (fdist_sq3 fl target q)) ->
      (forall q, In q (elems far) -> ext_le g (fdist_sq3 fl target q)) ->
      let s2 := fnearestRec fl near target s1 in
      let s3 := if flt g (snd s2) then fnearestRec fl far target s2 else s2 in
      (exists c, fnn_ok target c s3 /\ forall x, In x c -> In x (cands ++ p :: elems near ++ elems far)) /\
      ext_le (snd s3) (snd s) /\
      forall q, In q (p :: elems near ++ elems far) -> ext_le (snd s3) (fdist_sq3 fl target q)).
    { intros near far Kn Kf IHn IHf Hfar s2 s3.
      destruct (IHn s1 (cands ++ [p]) N1) as (N2 & L2 & D2). fold s2 in N2, L2, D2.
      assert (H3 : (exists c, fnn_ok target c s3 /\ forall x, In x c -> In x (cands ++ p :: elems near ++ elems far)) /\
                   ext_le (snd s3) (snd s2) /\ forall q, In q (elems far) -> ext_le (snd s3) (fdist_sq3 fl target q)).
      { unfold s3. destruct (flt g (snd s2)) eqn:E.
        - destruct (IHf s2 _ N2) as (N3 & L3 & D3). split; [|auto].
          eexists; split; [exact N3|]. intros x. rewrite !in_app_iff. cbn. rewrite in_app_iff. tauto.
        - split; [|split; [apply ext_refl|]].
          + exists ((cands ++ [p]) ++ elems near). split; [assumption|].
            intros x. rewrite !in_app_iff. cbn. rewrite in_app_iff. tauto.
          + intros q Hq. apply Hfar in Hq. apply flt_false in E. exact (ext_trans _ _ _ E Hq). }
      destruct H3 as (X & L3 & D3). split; [assumption|]. split.
      - exact (ext_trans _ _ _ L3 (ext_trans _ _ _ L2 L1)).
      - intros q [<-|Hq].
        + eapply ext_trans; [exact L3|]. eapply ext_trans; [exact L2|]. exact D1.
        + apply in_app_or in Hq. destruct Hq as [Hq|Hq]; [|auto].
          eapply ext_trans; [exact L3|]. auto. }
    destruct (coord target ax <? coord p ax) eqn:E.
    + destruct (Hgen l r Kl Kr (IHl Kl) (IHr Kr)) as ((c & Nc & Ic) & L & D).
      { intros q Hq. apply Hr in Hq. eapply ext_trans; [|apply (axis_le target q ax)]. apply away. left. split; [qc_lra|assumption]. }
      split; [|split; assumption]. destruct Nc as [N1' N2']. split; [|assumption]. apply Ic. assumption.
    + destruct (Hgen r l Kr Kl (IHr Kr) (IHl Kl)) as ((c & Nc & Ic) & L & D).
      { intros q Hq. apply Hl in Hq. eapply ext_trans; [|apply (axis_le target q ax)]. apply away. right. split; [assumption|qc_lra]. }
      split; [|split; [assumption|]].
      * destruct Nc as [N1' N2']. split; [|assumption]. apply Ic in N1'.
        clear - N1'. rewrite in_app_iff in *. cbn in *. rewrite in_app_iff in *. tauto.
      * intros q Hq. apply D. clear - Hq. cbn in *. rewrite in_app_iff in *. tauto.
Qed.
End Doubles.

Lemma fkd_nearest_top : forall fl, in_all_doubles fl -> forall nth_elt, nth_element_spec nth_elt ->
  forall ops target, contents [] ops <> [] -> exists s best,
    kd_run nth_elt kd_init ops = Some s /\
    fkd_nearest fl s target = Ok best /\ In best (contents [] ops) /\
    forall q, In q (contents [] ops) -> ext_le (fdist_sq3 fl target best) (fdist_sq3 fl target q).
Proof.
  intros fl FL nth_elt Hn ops target Hne.
  destruct (run_spec nth_elt Hn ops kd_init [] init_ok) as (s & Hs & K & P & _).
  unfold fkd_nearest. destruct (kroot s) as [|p ax l r] eqn:Er.
  - exfalso. apply Hne. cbn in P. apply Permutation_nil. symmetry. assumption.
  - exists s, (fst (fnearestRec fl (kroot s) target (p, fdist_sq3 fl target p))). rewrite <- Er in *.
    destruct (fnn_spec fl FL target (kroot s) K (p, fdist_sq3 fl target p) [p]) as ((I & E) & _ & D).
    { split; [left; reflexivity|reflexivity]. }
    split; [exact Hs|]. split; [rewrite Er; reflexivity|].
    assert (In p (elems (kroot s))) as Ip by (rewrite Er; left; reflexivity).
    split.
    + apply (Permutation_in (l := elems (kroot s))); [symmetry; exact P|]. destruct I as [<-|I]; assumption.
    + intros q Hq. rewrite <- E. apply D. apply (Permutation_in (l := contents [] ops)); assumption.
Qed.

(** ** no rounding on a grid *)
Lemma full_exact m e : (Z.abs m <= 2 ^ 53)%Z -> (-1074 <= e <= 960)%Z -> round_full (ofZ m * p2 e) = Some (ofZ m * p2 e).
Proof.
  intros M E. unfold round_full. rewrite unbounded_id by (exists m, e; split; [exact M|]; split; [lia|reflexivity]).
  rewrite Qcabs_mul, ofZ_abs by apply lt_le, p2_pos.
  assert (ofZ (Z.abs m) * p2 e < p2 1024) as H.
  { apply Qcle_lt_trans with (p2 53 * p2 e).
    - rewrite <- (ofZ_p2 53) by lia. rewrite !(Qcmult_comm _ (p2 e)). apply mul_le_l; [apply lt_le, p2_pos|]. apply ofZ_le, M.
    - rewrite <- p2_add. apply Qcle_lt_trans with (p2 1023); [apply p2_mono; lia|]. change 1024%Z with (1023 + 1)%Z. rewrite p2_step. pose proof (p2_pos 1023). qc_lra. }
  destruct (Qcltb _ _) eqn:F; [reflexivity|]. qcb. qc_lra.
Qed.
Lemma fl_exact fl k m e : in_all_doubles fl -> (Z.abs m <= 2 ^ 53)%Z -> (-1074 <= e <= 960)%Z -> fl k (ofZ m * p2 e) = Some (ofZ m * p2 e).
Proof. intros FL M E. destruct (proj2 FL k) as [H|H]; rewrite H; [apply full_exact; assumption|reflexivity]. Qed.

Lemma grid_dist3 fl e a b : in_all_doubles fl -> (-500 <= e <= 450)%Z -> on_grid3 e 24 a -> on_grid3 e 24 b -> fdist_sq3 fl a b = Some (v3distSq a b).
Proof.
  intros FL E (i & j & k & Bi & Bj & Bk & Ex & Ey & Ez) (i' & j' & k' & Bi' & Bj' & Bk' & Ex' & Ey' & Ez').
  change Qc_of_Z with ofZ in *. unfold fdist_sq3, v3distSq, v3sq, v3sub. cbn [vx vy vz]. rewrite Ex, Ey, Ez, Ex', Ey', Ez'.
  assert (forall u v, ofZ u * p2 e - ofZ v * p2 e = ofZ (u - v) * p2 e) as SUB by (intros; rewrite ofZ_sub; ring).
  assert (forall u, ofZ u * p2 e * (ofZ u * p2 e) = ofZ (u * u) * p2 (e + e)) as SQ by (intros; rewrite ofZ_mul, p2_add; ring).
  assert (forall u v, ofZ u * p2 (e + e) + ofZ v * p2 (e + e) = ofZ (u + v) * p2 (e + e)) as ADD by (intros; rewrite ofZ_add; ring).
  rewrite !SUB.
  assert (forall u v, (Z.abs u < 2 ^ 24)%Z -> (Z.abs v < 2 ^ 24)%Z -> (Z.abs (u - v) <= 2 ^ 25)%Z) as D by (intros; change (2 ^ 25)%Z with (2 * 2 ^ 24)%Z; lia).
  pose proof (D i i' Bi Bi') as D1. pose proof (D j j' Bj Bj') as D2. pose proof (D k k' Bk Bk') as D3.
  revert D1 D2 D3. generalize (i - i')%Z (j - j')%Z (k - k')%Z. intros a1 b1 c1 D1 D2 D3.
  assert (forall u, (Z.abs u <= 2 ^ 25)%Z -> (0 <= u * u <= 2 ^ 50)%Z) as QB.
  { intros u U. split; [apply Z.square_nonneg|]. rewrite <- (Z.abs_square u). change (2 ^ 50)%Z with (2 ^ 25 * 2 ^ 25)%Z. apply Z.mul_le_mono_nonneg; try exact U; apply Z.abs_nonneg. }
  pose proof (QB _ D1) as Q1. pose proof (QB _ D2) as Q2. pose proof (QB _ D3) as Q3.
  assert (2 ^ 25 <= 2 ^ 53)%Z as W by (cbn; lia). assert (4 * 2 ^ 50 <= 2 ^ 53)%Z as W2 by (cbn; lia).
  rewrite !(fl_exact fl 0 _ e FL) by lia. cbn [fsq]. rewrite !SQ.
  rewrite (fl_exact fl 11 _ (e + e) FL), (fl_exact fl 12 _ (e + e) FL), (fl_exact fl 13 _ (e + e) FL) by lia. cbn [fplus]. rewrite ADD.
  rewrite (fl_exact fl 0 _ (e + e) FL) by lia. cbn [fplus]. rewrite ADD. rewrite (fl_exact fl 0 _ (e + e) FL) by lia. reflexivity.
Qed.

Lemma fkd_grid_top : forall fl, in_all_doubles fl -> forall nth_elt, nth_element_spec nth_elt ->
  forall e ops target, (-500 <= e <= 450)%Z -> contents [] ops <> [] -> on_grid3 e 24 target -> (forall q, In q (contents [] ops) -> on_grid3 e 24 q) ->
  exists s best, kd_run nth_elt kd_init ops = Some s /\ fkd_nearest fl s target = Ok best /\ In best (contents [] ops) /\
    forall q, In q (contents [] ops) -> dist2 target best <= dist2 target q.
Proof.
  intros fl FL nth_elt Hn e ops target E Hne Gt G. destruct (fkd_nearest_top fl FL nth_elt Hn ops target Hne) as (s & best & R & N & I & D).
  exists s, best. do 3 (split; [assumption|]). intros q Hq. specialize (D q Hq). rewrite !(grid_dist3 fl e) in D by auto. cbn in D. rewrite !distSq_dist2 in D. exact D.
Qed.

(** ** relative error *)
Definition u53 : Qc := p2 (-53).
Definition within (k : nat) (X t : Qc) : Prop := (1 - u53) ^ k * X <= t /\ t <= (1 + u53) ^ k * X.
Lemma u53_pos : 0 < u53. Proof. apply p2_pos. Qed.
Lemma u53_lt1 : u53 < 1. Proof. reflexivity. Qed.
Lemma lo_half k : (k <= 5)%nat -> half <= (1 - u53) ^ k.
Proof. intros H. do 6 (destruct k as [|k]; [vm_compute; discriminate|]). lia. Qed.
Lemma hi_two k : (k <= 5)%nat -> (1 + u53) ^ k <= 1 + 1.
Proof. intros H. do 6 (destruct k as [|k]; [vm_compute; discriminate|]). lia. Qed.

Lemma full_rel x : x = 0 \/ (p2 (-1022) <= Qcabs x /\ Qcabs x <= p2 1023) -> exists y, round_full x = Some y /\ Qcabs (y - x) <= u53 * Qcabs x.
Proof.
  intros [->|(A & B)].
  - exists 0. unfold round_full. rewrite unbounded_0. split; [reflexivity|]. replace (0 - 0) with 0 by ring. rewrite Qcabs_0. rewrite Qcmult_0_r. apply Qcle_refl.
  - assert (x <> 0) as X by (intros ->; rewrite Qcabs_0 in A; pose proof (p2_pos (-1022)); qc_lra).
    exists (unbounded x). split.
    + unfold round_full. assert (Qcabs (unbounded x) < p2 1024) as L; [|destruct (Qcltb _ _) eqn:E; [reflexivity|qcb; qc_lra]].
      assert (p2 1023 < p2 1024) as P by (change 1024%Z with (1023 + 1)%Z; rewrite p2_step; pose proof (p2_pos 1023); qc_lra).
      assert (unbounded (p2 1023) = p2 1023) as U1 by (apply unbounded_id; exists 1%Z, 1023%Z; split; [cbn; lia|]; split; [lia|]; change (ofZ 1) with 1; ring).
      assert (unbounded (- p2 1023) = - p2 1023) as U2 by (apply unbounded_id; exists (-1)%Z, 1023%Z; split; [cbn; lia|]; split; [lia|]; change (ofZ (-1)) with (- (1)); ring).
      pose proof (Qcle_Qcabs x) as X1. pose proof (Qcopp_Qcabs x) as X2.
      assert (unbounded x <= p2 1023) as V1 by (rewrite <- U1; apply unbounded_mono; qc_lra).
      assert (- p2 1023 <= unbounded x) as V2 by (rewrite <- U2; apply unbounded_mono; qc_lra).
      apply Qcle_lt_trans with (p2 1023); [|exact P]. apply abs_le; assumption.
    + rewrite unbounded_eq. destruct (exponent_spec x X) as (_ & U).
      assert (-1022 <= exponent x)%Z as HE by (assert (p2 (-1022) < p2 (exponent x + 1)) as H by qc_lra; apply p2_lt_inv in H; lia).
      rewrite Z.max_l by exact HE. apply rounded_by; [exact X|reflexivity].
Qed.

Definition fit (X : Qc) : Prop := X = 0 \/ (p2 (-1000) <= X /\ X <= p2 1004).
Lemma fl_step fl kind k X t : in_all_doubles fl -> (k <= 4)%nat -> fit X -> within k X t -> exists y, fl kind t = Some y /\ within (S k) X y.
Proof.
  intros FL K F (A & B). pose proof u53_pos as U0. pose proof u53_lt1 as U1.
  assert (forall y, 0 <= t -> Qcabs (y - t) <= u53 * t -> within (S k) X y) as DONE.
  { intros y T E. pose proof (Qcle_Qcabs (y - t)) as E1. pose proof (Qcopp_Qcabs (y - t)) as E2.
    change ((1 - u53) ^ S k) with ((1 - u53) * (1 - u53) ^ k). change ((1 + u53) ^ S k) with ((1 + u53) * (1 + u53) ^ k) . split.
    - assert (0 <= (1 - u53) * (t - (1 - u53) ^ k * X)) by (apply mul_nonneg; qc_lra). change ((1 - u53) ^ S k) with ((1 - u53) * (1 - u53) ^ k).
      replace ((1 - u53) * (1 - u53) ^ k * X) with ((1 - u53) * ((1 - u53) ^ k * X)) by ring. qc_lra.
    - assert (0 <= (1 + u53) * ((1 + u53) ^ k * X - t)) by (apply mul_nonneg; qc_lra). change ((1 + u53) ^ S k) with ((1 + u53) * (1 + u53) ^ k).
      replace ((1 + u53) * (1 + u53) ^ k * X) with ((1 + u53) * ((1 + u53) ^ k * X)) by ring. qc_lra. }
  assert (0 <= t /\ (t = 0 \/ (p2 (-1022) <= Qcabs t /\ Qcabs t <= p2 1023))) as (T & R).
  { destruct F as [->|(F1 & F2)].
    - rewrite !Qcmult_0_r in *. assert (t = 0) as -> by qc_lra. split; [apply Qcle_refl|left; reflexivity].
    - pose proof (lo_half k ltac:(lia)) as L. pose proof (hi_two k ltac:(lia)) as H. pose proof (p2_pos (-1000)) as P0. pose proof half_half as HH.
      assert (0 <= X) as X0 by qc_lra. assert (0 < half) as HP by reflexivity.
      assert (half * X <= t) as T1 by (assert (0 <= ((1 - u53) ^ k - half) * X) by (apply mul_nonneg; qc_lra); qc_lra).
      assert (t <= X + X) as T2 by (assert (0 <= (1 + 1 - (1 + u53) ^ k) * X) by (apply mul_nonneg; qc_lra); qc_lra).
      assert (0 <= half * X) by (apply mul_nonneg; qc_lra). split; [qc_lra|]. right.
      assert (Qcabs t = t) as -> by (apply (Qcabs_case t (fun w => w = t)); intros; qc_lra). split.
      + apply Qcle_trans with (half * X); [|exact T1]. apply Qcle_trans with (half * p2 (-1000)).
        * change half with (p2 (-1)). rewrite <- p2_add. apply p2_mono. lia.
        * apply mul_le_l; [qc_lra|exact F1].
      + apply Qcle_trans with (p2 1004 + p2 1004); [qc_lra|]. rewrite <- p2_step. apply p2_mono. lia. }
  destruct (proj2 FL kind) as [H|H]; rewrite H.
  - destruct (full_rel t R) as (y & E & D). exists y. split; [exact E|]. apply DONE; [exact T|].
    assert (Qcabs t = t) as Q by (apply (Qcabs_case t (fun w => w = t)); intros; qc_lra). rewrite Q in D. exact D.
  - exists t. split; [reflexivity|]. apply DONE; [exact T|]. replace (t - t) with 0 by ring. rewrite Qcabs_0. apply mul_nonneg; qc_lra.
Qed.

Lemma sq_abs d : d * d = Qcabs d * Qcabs d.
Proof. apply (Qcabs_case d (fun w => d * d = w * w)); intros; ring. Qed.
Lemma within_sq d d' : Qcabs (d' - d) <= u53 * Qcabs d -> within 2 (d * d) (d' * d').
Proof.
  intros H. pose proof u53_pos as U0. pose proof u53_lt1 as U1. pose proof (Qcabs_nonneg d) as D0. pose proof (Qcabs_nonneg d') as D1.
  assert (Qcabs d' <= (1 + u53) * Qcabs d /\ (1 - u53) * Qcabs d <= Qcabs d') as (A & B).
  { revert H. pose proof (Qcle_Qcabs (d' - d)) as E1. pose proof (Qcopp_Qcabs (d' - d)) as E2. revert E1 E2. generalize (Qcabs (d' - d)). intros w E1 E2.
    generalize D0. apply (Qcabs_case d); apply (Qcabs_case d'); intros S1 S2 D H; split; try qc_lra;
      assert (0 <= u53 * d \/ 0 <= u53 * - d) as _ by (left + right; apply mul_nonneg; qc_lra); qc_lra. }
  rewrite (sq_abs d), (sq_abs d'). revert D0 D1 A B. generalize (Qcabs d) (Qcabs d'). intros x y D0 D1 A B. split.
  - change ((1 - u53) ^ 2) with ((1 - u53) * ((1 - u53) * 1)). replace ((1 - u53) * ((1 - u53) * 1) * (x * x)) with (((1 - u53) * x) * ((1 - u53) * x)) by ring.
    assert (0 <= (1 - u53) * x) as P by (apply mul_nonneg; qc_lra). revert P B. generalize ((1 - u53) * x). intros w P B.
    apply Qcle_trans with (w * y); [apply mul_le_l; assumption|]. rewrite (Qcmult_comm w y). apply mul_le_l; assumption.
  - change ((1 + u53) ^ 2) with ((1 + u53) * ((1 + u53) * 1)). replace ((1 + u53) * ((1 + u53) * 1) * (x * x)) with (((1 + u53) * x) * ((1 + u53) * x)) by ring.
    revert A. generalize ((1 + u53) * x). intros w A. apply Qcle_trans with (y * w); [apply mul_le_l; assumption|]. rewrite (Qcmult_comm y w). apply mul_le_l; [qc_lra|assumption].
Qed.
Lemma within_up k X t : 0 <= X -> within k X t -> within (S k) X t.
Proof.
  intros X0 (A & B). pose proof u53_pos as U0. pose proof u53_lt1 as U1.
  assert (forall w, 0 <= w -> forall j, 0 <= w ^ j) as PW by (intros w W j; induction j as [|j IH]; [discriminate|apply mul_nonneg; assumption]).
  pose proof (PW (1 - u53) ltac:(qc_lra) k) as P1. pose proof (PW (1 + u53) ltac:(qc_lra) k) as P2. split.
  - change ((1 - u53) ^ S k) with ((1 - u53) * (1 - u53) ^ k). assert (0 <= u53 * ((1 - u53) ^ k * X)) by (apply mul_nonneg; [qc_lra|apply mul_nonneg; assumption]). qc_lra.
  - change ((1 + u53) ^ S k) with ((1 + u53) * (1 + u53) ^ k). assert (0 <= u53 * ((1 + u53) ^ k * X)) by (apply mul_nonneg; [qc_lra|apply mul_nonneg; assumption]). qc_lra.
Qed.
Lemma within_add k X Y s t : within k X s -> within k Y t -> within k (X + Y) (s + t).
Proof. intros (A & B) (C & D). split; rewrite Qcmult_plus_distr_r; qc_lra. Qed.

Definition small_fit (b : Z) (X : Qc) : Prop := X = 0 \/ (p2 (-1000) <= X /\ X <= p2 b).
Lemma fit_sq d : moderate d -> small_fit 1000 (d * d).
Proof.
  intros [->|(A & B)]; [left; reflexivity|]. right. rewrite sq_abs. pose proof (p2_pos (-500)). pose proof (p2_pos 500).
  change (-1000)%Z with (-500 + -500)%Z. change 1000%Z with (500 + 500)%Z. rewrite !p2_add. revert A B. generalize (Qcabs d). intros x A B. split.
  - apply Qcle_trans with (p2 (-500) * x); [apply mul_le_l; [qc_lra|assumption]|]. rewrite (Qcmult_comm _ x). apply mul_le_l; [qc_lra|assumption].
  - apply Qcle_trans with (x * p2 500); [apply mul_le_l; [qc_lra|assumption]|]. rewrite (Qcmult_comm x _). apply mul_le_l; [qc_lra|assumption].
Qed.
Lemma fit_add b X Y : (1000 <= b)%Z -> small_fit b X -> small_fit b Y -> small_fit (b + 1) (X + Y).
Proof.
  intros HB A B. unfold small_fit in *. pose proof (p2_pos (-1000)). pose proof (p2_pos b). rewrite p2_step.
  destruct A as [->|(A1 & A2)], B as [->|(B1 & B2)]; [left; ring|right..]; split; qc_lra.
Qed.
Lemma fit_weak b X : (b <= 1004)%Z -> small_fit b X -> fit X.
Proof. intros H [->|(A & B)]; [left; reflexivity|]. right. split; [exact A|]. eapply Qcle_trans; [exact B|]. apply p2_mono, H. Qed.
Lemma fit_nonneg b X : small_fit b X -> 0 <= X.
Proof. intros [->|(A & B)]; [apply Qcle_refl|]. pose proof (p2_pos (-1000)). qc_lra. Qed.

Lemma dist_within fl a b : in_all_doubles fl -> moderately_apart a b -> exists c, fdist_sq3 fl a b = Some c /\ within 5 (v3distSq a b) c.
Proof.
  intros FL (M1 & M2 & M3).
  assert (forall d, moderate d -> exists d', fl 0%nat d = Some d' /\ within 2 (d * d) (d' * d')) as ROOT.
  { intros d M. destruct (full_rel d) as (d' & E & D).
    - destruct M as [->|(A & B)]; [left; reflexivity|]. right. split; [eapply Qcle_trans; [|exact A]; apply p2_mono; lia|eapply Qcle_trans; [exact B|]; apply p2_mono; lia].
    - exists d'. rewrite (proj1 FL). split; [exact E|apply within_sq, D]. }
  pose proof (fit_sq _ M1) as F1. pose proof (fit_sq _ M2) as F2. pose proof (fit_sq _ M3) as F3.
  destruct (ROOT _ M1) as (x & E1 & W1). destruct (ROOT _ M2) as (y & E2 & W2). destruct (ROOT _ M3) as (z & E3 & W3).
  unfold fdist_sq3. rewrite E1, E2, E3. cbn [fsq]. unfold v3distSq, v3sq, v3sub. cbn [vx vy vz].
  set (X := (vx a - vx b) * (vx a - vx b)) in *. set (Y := (vy a - vy b) * (vy a - vy b)) in *. set (Z := (vz a - vz b) * (vz a - vz b)) in *.
  destruct (fl_step fl 11 2 X (x * x) FL ltac:(lia) (fit_weak 1000 _ ltac:(lia) F1) W1) as (tx & -> & Wx).
  destruct (fl_step fl 12 2 Y (y * y) FL ltac:(lia) (fit_weak 1000 _ ltac:(lia) F2) W2) as (ty & -> & Wy).
  destruct (fl_step fl 13 2 Z (z * z) FL ltac:(lia) (fit_weak 1000 _ ltac:(lia) F3) W3) as (tz & -> & Wz).
  cbn [fplus]. pose proof (fit_add 1000 _ _ ltac:(lia) F1 F2) as F12. change (1000 + 1)%Z with 1001%Z in F12.
  destruct (fl_step fl 0 3 (X + Y) (tx + ty) FL ltac:(lia) (fit_weak 1001 _ ltac:(lia) F12) (within_add _ _ _ _ _ Wx Wy)) as (s & -> & Ws).
  cbn [fplus]. assert (small_fit 1001 Z) as F3' by (destruct F3 as [F3|(A & B)]; [left; exact F3|right; split; [exact A|eapply Qcle_trans; [exact B|apply p2_mono; lia]]]).
  pose proof (fit_add 1001 _ _ ltac:(lia) F12 F3') as F123. change (1001 + 1)%Z with 1002%Z in F123.
  apply (fl_step fl 0 4 (X + Y + Z) (s + tz) FL ltac:(lia) (fit_weak 1002 _ ltac:(lia) F123)). apply within_add; [exact Ws|]. apply within_up; [apply (fit_nonneg _ _ F3)|exact Wz].
Qed.

Lemma fkd_relative_top : forall fl, in_all_doubles fl -> forall nth_elt, nth_element_spec nth_elt ->
  forall ops target, contents [] ops <> [] -> (forall q, In q (contents [] ops) -> moderately_apart target q) ->
  exists s best, kd_run nth_elt kd_init ops = Some s /\ fkd_nearest fl s target = Ok best /\ In best (contents [] ops) /\
    forall q, In q (contents [] ops) -> (1 - p2 (-53)) ^ 5 * dist2 target best <= (1 + p2 (-53)) ^ 5 * dist2 target q.
Proof.
  intros fl FL nth_elt Hn ops target Hne M. destruct (fkd_nearest_top fl FL nth_elt Hn ops target Hne) as (s & best & R & N & I & D).
  exists s, best. do 3 (split; [assumption|]). intros q Hq. specialize (D q Hq).
  destruct (dist_within fl target best FL (M _ I)) as (c & Ec & Wc & _). destruct (dist_within fl target q FL (M _ Hq)) as (c' & Ec' & _ & Wc').
  rewrite Ec, Ec' in D. cbn in D. rewrite <- !distSq_dist2. fold u53. eapply Qcle_trans; [exact Wc|]. eapply Qcle_trans; [exact D|exact Wc'].
Qed.
