(** split with normalisation, knot normalisation, and decomposition into
    Bezier pieces. *)
From Coq Require Import List ZArith QArith Qcanon Lia Bool Permutation Sorted.
From Verif Require Import Base BaseFacts ModelVec ModelAabb ModelNurbs SpecAabb SpecNurbs SpecCurve LoopFacts
  ProofBspline ProofNurbs ProofInsertion ProofInsertCurve ProofInsertKnot ProofCurve ProofSplit ProofNurbsMisc ProofNurbsTop.
Import ListNotations.
Open Scope Qc_scope.

Lemma Qcinv_pos b : 0 < b -> 0 < / b.
Proof.
  intros Hb. unfold Qclt in *. assert (this (/ b) == / this b)%Q as -> by apply Qred_correct.
  apply Qinv_lt_0_compat. exact Hb.
Qed.

Lemma normalize_top c n : good_curve c n -> positive_weights (nc_cps c) ->
  let U := nc_knots c in let a := knot U 0 in let b := knot U (length U - 1) in
  exists c', normalize_knots c = Ok c' /\ good_curve c' n /\ nc_cps c' = nc_cps c /\ nc_degree c' = nc_degree c /\
    nc_periodic c' = nc_periodic c /\ nc_aabb c' = nc_aabb c /\
    nc_interval c' = (0, 1) /\ a < b /\ nc_knots c' = map (fun k => (k - a) / (b - a)) U /\
    (forall i j, knot (nc_knots c') i <= knot (nc_knots c') j <-> knot U i <= knot U j) /\
    (forall i j, knot (nc_knots c') i = knot (nc_knots c') j <-> knot U i = knot U j) /\
    (forall u, in_curve c n u -> in_curve c' n ((u - a) / (b - a)) /\
       exists pt, evaluate c u = Ok pt /\ evaluate c' ((u - a) / (b - a)) = Ok pt).
Proof.
  intros (L & V & H8) W U a b. destruct (normalize_ok c n L V) as (c' & E & A1 & A2 & A3 & A4 & A5 & A6 & A7 & A8 & A9 & A10 & A11).
  fold U a b in A6, A7, A9, A10, A11. exists c'. split; [exact E|].
  split; [unfold good_curve; rewrite A1, A2; auto|]. do 4 (split; [assumption|]). split; [exact A5|]. split; [exact A7|]. split; [exact A6|].
  split; [exact A9|]. split; [exact A10|]. intros u D.
  assert (U <> []) as NE. { destruct V as (V1 & V2 & _). fold U in V2. intros F. rewrite F in V2. cbn in V2. lia. }
  assert (in_curve c' n ((u - a) / (b - a))) as D'.
  { destruct D as [D1 D2]. fold U in D1, D2. unfold in_curve, in_domain. rewrite A2, A6. rewrite !(knot_map _ U _ NE).
    assert (0 < b - a) as P by (clear - A7; qc_lra). split.
    - unfold Qcdiv. apply aff_le; [|clear - D1; qc_lra]. apply Qcinv_pos. exact P.
    - unfold Qcdiv. apply aff_le; [|clear - D2; qc_lra]. apply Qcinv_pos. exact P. }
  split; [exact D'|]. eexists. split; [apply evaluate_positive; eassumption|].
  rewrite (evaluate_positive c' n); [|rewrite A1; assumption|rewrite A2; assumption|rewrite A2; assumption|exact D'|rewrite A1; assumption].
  f_equal. rewrite A1, A2. apply A11.
Qed.

(** ** split with normalisation *)
Lemma traces_unit part c lo hi : traces part c lo hi -> unit_weights (nc_cps part).
Proof. intros (m & _ & _ & H & _). exact H. Qed.

Lemma split_normalized c n t : good_curve c n -> (1 <= nc_degree c)%nat -> unit_weights (nc_cps c) -> interval_current c ->
  knot (nc_knots c) (nc_degree c) < t -> t < knot (nc_knots c) (n + 1) ->
  separated (nc_knots c) t -> (multiplicity (nc_knots c) t <= nc_degree c)%nat ->
  let a := knot (nc_knots c) 0 in let b := knot (nc_knots c) (length (nc_knots c) - 1) in
  exists d1 d2, nc_split c t true = Ok (d1, d2) /\ nc_interval d1 = (0, 1) /\ nc_interval d2 = (0, 1) /\
    (forall u, knot (nc_knots c) (nc_degree c) <= u -> u <= t ->
       exists pt, evaluate c u = Ok pt /\ evaluate d1 ((u - a) / (t - a)) = Ok pt /\ inside (nc_aabb d1) pt) /\
    (forall u, t <= u -> u <= knot (nc_knots c) (n + 1) ->
       exists pt, evaluate c u = Ok pt /\ evaluate d2 ((u - t) / (b - t)) = Ok pt /\ inside (nc_aabb d2) pt).
Proof.
  intros GC H1 UW HI T1 T2 SEP Hm a b. pose proof GC as (L & V & H8).
  destruct (domain_span n _ _ t V (Qclt_le_weak _ _ T1) T2) as (k & Hk & K1 & K2).
  destruct (split_ok c n t k) as (c1 & c2 & E & P1 & P2 & KV1 & KV2 & _); try assumption; [lia|].
  apply (part_traces c c1 n) in P1; try assumption; [|apply Qcle_refl|apply Qclt_le_weak; assumption].
  apply (part_traces c c2 n) in P2; try assumption; [|apply Qclt_le_weak; assumption|apply Qcle_refl].
  destruct P1 as (m1 & G1 & D1 & W1 & I1 & L1 & R1 & TR1). destruct P2 as (m2 & G2 & D2 & W2 & I2 & L2 & R2 & TR2).
  destruct (normalize_top c1 m1 G1 (unit_positive _ W1)) as (d1 & N1 & _ & _ & _ & _ & B1 & J1 & _ & _ & _ & _ & S1).
  destruct (normalize_top c2 m2 G2 (unit_positive _ W2)) as (d2 & N2 & _ & _ & _ & _ & B2 & J2 & _ & _ & _ & _ & S2).
  pose proof V as (V1 & V2 & V3 & V4).
  assert (knot (nc_knots c1) 0 = a) as E1.
  { rewrite KV1. unfold knot. rewrite app_nth1 by (rewrite firstn_length; lia). rewrite nth_firstn_lt by lia.
    unfold a, knot. apply nth_indep. lia. }
  assert (knot (nc_knots c1) (length (nc_knots c1) - 1) = t) as E2.
  { rewrite KV1. rewrite app_assoc. rewrite app_length. cbn [length]. unfold knot.
    rewrite app_nth2 by lia. match goal with |- nth ?i _ _ = _ => replace i with 0%nat by lia end. reflexivity. }
  assert (knot (nc_knots c2) 0 = t) as E3.
  { rewrite KV2. rewrite Nat.add_1_r. reflexivity. }
  assert (knot (nc_knots c2) (length (nc_knots c2) - 1) = b) as E4.
  { rewrite KV2. unfold knot at 1. rewrite app_length, repeat_length, skipn_length.
    rewrite app_nth2 by (rewrite repeat_length; lia). rewrite repeat_length. rewrite nth_skipn_add.
    unfold b, knot. match goal with |- nth ?i _ _ = nth ?j _ _ => replace i with j by lia end. apply nth_indep. lia. }
  exists d1, d2. split.
  { clear - E N1 N2. unfold nc_split in *. destruct (nc_interval c) as [i0 i1].
    destruct (_ || _); [discriminate|]. 
    repeat match type of E with
    | context [bind ?r _] => destruct r; cbn [bind] in *; try discriminate
    | context [if ?b then UB else _] => destruct b; try discriminate
    end.
    injection E as -> ->. rewrite N1. cbn [bind]. rewrite N2. reflexivity. }
  rewrite E1, E2 in S1. rewrite E3, E4 in S2. split; [exact J1|]. split; [exact J2|]. split; intros u U1 U2.
  - destruct (TR1 u U1 U2) as (pt & X1 & X2 & X3). destruct (S1 u) as (_ & pt' & Y1 & Y2).
    { unfold in_curve, in_domain. rewrite D1, L1, R1. auto. }
    rewrite X1 in Y1. injection Y1 as <-. exists pt. rewrite B1. auto.
  - destruct (TR2 u U1 U2) as (pt & X1 & X2 & X3). destruct (S2 u) as (_ & pt' & Y1 & Y2).
    { unfold in_curve, in_domain. rewrite D2, L2, R2. auto. }
    rewrite X1 in Y1. injection Y1 as <-. exists pt. rewrite B2. auto.
Qed.

(** ** decompose *)
Lemma tol12_pos : 0 < tol12. Proof. reflexivity. Qed.

Lemma gaps_lower l : forall x y, gaps x l -> In y l -> tol12 < y - x.
Proof.
  induction l as [|z l IH]; intros x y G I; [destruct I|]. destruct G as [G1 G2].
  destruct I as [<-|I]; [exact G1|]. specialize (IH z y G2 I). pose proof tol12_pos. qc_lra.
Qed.
Lemma gaps_strict l : forall x, gaps x l -> StronglySorted Qclt (x :: l).
Proof.
  induction l as [|y l IH]; intros x G; [repeat constructor|]. constructor; [apply IH; apply G|].
  apply Forall_forall. intros z Hz. pose proof (gaps_lower _ _ _ G Hz). pose proof tol12_pos. qc_lra.
Qed.

Lemma in_runs l x : In x (runs l) -> In x (map fst l).
Proof.
  unfold runs. rewrite in_flat_map, in_map_iff. intros ((y & m) & H1 & H2). apply repeat_spec in H2. cbn in H2. subst. exists (y, m). auto.
Qed.
Lemma in_runs_inv l x : (forall y m, In (y, m) l -> (1 <= m)%nat) -> In x (map fst l) -> In x (runs l).
Proof.
  intros H I. apply in_map_iff in I. destruct I as ((y & m) & <- & I). unfold runs. apply in_flat_map. exists (y, m).
  split; [exact I|]. cbn. specialize (H y m I). destruct m; [lia|]. left. reflexivity.
Qed.

Lemma mult_app U V t : multiplicity (U ++ V) t = (multiplicity U t + multiplicity V t)%nat.
Proof. unfold multiplicity. rewrite filter_app, app_length. reflexivity. Qed.
Lemma mult_not U t : ~ In t U -> multiplicity U t = 0%nat.
Proof.
  intros H. unfold multiplicity. rewrite filter_none; [reflexivity|]. intros x Hx.
  destruct (Qceqb_spec t x) as [->|]; [contradiction|reflexivity].
Qed.
Lemma mult_repeat t m : multiplicity (repeat t m) t = m.
Proof.
  unfold multiplicity. rewrite filter_all; [apply repeat_length|]. intros x Hx. apply repeat_spec in Hx. subst.
  destruct (Qceqb_spec t t); [reflexivity|contradiction].
Qed.

Lemma traces_trans q t c lo hi lo' hi' : traces q t lo hi -> traces t c lo' hi' -> lo' <= lo -> hi <= hi' -> traces q c lo hi.
Proof.
  intros (m & G & D & W & I & K1 & K2 & T) (m' & G' & D' & W' & I' & K1' & K2' & T') H1 H2.
  exists m. split; [exact G|]. split; [congruence|]. split; [exact W|]. split; [exact I|].
  rewrite D' in K1. split; [exact K1|]. split; [exact K2|].
  intros u U1 U2. destruct (T u U1 U2) as (pt & X1 & X2 & X3). destruct (T' u) as (pt' & Y1 & Y2 & Y3).
  { eapply Qcle_trans; eassumption. } { eapply Qcle_trans; eassumption. }
  rewrite X2 in Y1. injection Y1 as <-. exists pt. auto.
Qed.

Lemma chain_trans t c b : forall ks lo ps, nc_degree t = nc_degree c -> bezier_chain t lo ks ps ->
  forall lo', traces t c lo' b -> lo' <= lo -> (forall x, In x ks -> x <= b) -> StronglySorted Qclt (lo :: ks) -> bezier_chain c lo ks ps.
Proof.
  induction ks as [|hi ks IH]; intros lo [|q ps] D H lo' T H1 H2 SS; cbn [bezier_chain] in *; try tauto.
  destruct H as (A & B & C & R). rewrite <- D. split; [exact A|]. split; [exact B|].
  assert (lo < hi). { inversion SS as [|? ? S F]; subst. inversion F; subst. assumption. }
  split.
  - eapply traces_trans; [exact C|exact T|exact H1|]. apply H2. left. reflexivity.
  - eapply IH; [exact D|exact R|exact T| | |].
    + apply Qcle_trans with lo; [assumption|apply Qclt_le_weak; assumption].
    + intros x Hx. apply H2. right. exact Hx.
    + inversion SS. assumption.
Qed.

Lemma bezier_knots_len (c : ncurve) n a mids b : length (nc_cps c) = S n -> valid_knots n (nc_degree c) (nc_knots c) ->
  nc_knots c = repeat a (nc_degree c + 1) ++ runs mids ++ repeat b (nc_degree c + 1) -> n = (nc_degree c + length (runs mids))%nat.
Proof.
  intros L (V1 & V2 & _) K. rewrite K in V2. rewrite !app_length, !repeat_length in V2. lia.
Qed.

Lemma decompose_loop_ok b : forall mids c n a,
  good_curve c n -> (1 <= nc_degree c)%nat -> unit_weights (nc_cps c) -> interval_current c ->
  (forall q, In q (nc_cps c) -> inside (nc_aabb c) (xyz q)) ->
  nc_knots c = repeat a (nc_degree c + 1) ++ runs mids ++ repeat b (nc_degree c + 1) ->
  gaps a (map fst mids ++ [b]) -> (forall t m, In (t, m) mids -> (1 <= m <= nc_degree c)%nat) ->
  exists pieces, decompose_loop c (map fst mids) = Ok pieces /\ bezier_chain c a (map fst mids ++ [b]) pieces.
Proof.
  induction mids as [|[t m] mids IH]; intros c n a GC H1 UW HI HB K G HM.
  - cbn [map decompose_loop]. exists [c]. split; [reflexivity|]. cbn [map app bezier_chain].
    pose proof GC as (L & V & H8). pose proof (bezier_knots_len c n a [] b L V K) as EN. cbn in EN.
    split; [exact K|]. split; [lia|]. split; [|exact I].
    assert (knot (nc_knots c) (nc_degree c) = a) as KA.
    { rewrite K. unfold knot. rewrite app_nth1 by (rewrite repeat_length; lia).
      assert (In (nth (nc_degree c) (repeat a (nc_degree c + 1)) (last (repeat a (nc_degree c + 1) ++ runs [] ++ repeat b (nc_degree c + 1)) 0)) (repeat a (nc_degree c + 1))) as X by (apply nth_In; rewrite repeat_length; lia).
      apply repeat_spec in X. exact X. }
    assert (knot (nc_knots c) (n + 1) = b) as KB.
    { rewrite K. unfold knot. cbn [runs flat_map app]. rewrite app_nth2 by (rewrite repeat_length; lia). rewrite repeat_length.
      match goal with |- nth ?i ?l ?d = _ => assert (In (nth i l d) l) as X by (apply nth_In; rewrite repeat_length; lia) end.
      apply repeat_spec in X. exact X. }
    exists n. split; [exact GC|]. split; [reflexivity|]. split; [exact UW|]. split; [exact HI|]. split; [exact KA|]. split; [exact KB|].
    intros u U1 U2. destruct (hull_top c n u GC) as (pt & E & _ & B).
    { split; [rewrite KA|rewrite KB]; assumption. } { apply unit_positive; assumption. }
    exists pt. split; [exact E|]. split; [exact E|]. apply B. exact HB.
  - cbn [map fst] in G. cbn [app] in G. destruct G as [G1 G2]. pose proof GC as (L & V & H8).
    pose proof (bezier_knots_len c n a _ b L V K) as EN. cbn [runs flat_map fst snd] in EN. fold (runs mids) in EN.
    rewrite app_length, repeat_length in EN.
    cbn [runs flat_map fst snd] in K. fold (runs mids) in K.
    set (p := nc_degree c) in *. set (U := nc_knots c) in *.
    assert (1 <= m <= p)%nat as Hm by (apply (HM t); left; reflexivity).
    set (A := repeat a (p + 1) ++ repeat t m). set (R := runs mids ++ repeat b (p + 1)).
    assert (U = A ++ R) as KU by (rewrite K; unfold A, R; rewrite !app_assoc; reflexivity).
    assert (length A = p + 1 + m)%nat as LA by (unfold A; rewrite app_length, !repeat_length; lia).
    assert (forall x, In x R -> tol12 < x - t) as HR.
    { intros x Hx. apply (gaps_lower _ _ _ G2). unfold R in Hx. apply in_app_or in Hx. apply in_or_app. destruct Hx as [Hx|Hx].
      - left. apply in_runs. exact Hx.
      - right. apply repeat_spec in Hx. left. auto. }
    pose proof tol12_pos as TP.
    assert (length R = length (runs mids) + (p + 1))%nat as LR by (unfold R; rewrite app_length, repeat_length; lia).
    assert (knot U (p + m) = t) as KT.
    { unfold knot. rewrite KU. rewrite app_nth1 by lia. unfold A. rewrite app_nth2 by (rewrite repeat_length; lia). rewrite repeat_length.
      match goal with |- nth ?i ?l ?d = _ => assert (In (nth i l d) l) as X by (apply nth_In; rewrite repeat_length; lia) end.
      apply repeat_spec in X. exact X. }
    assert (t < knot U (S (p + m))) as KT2.
    { unfold knot. rewrite KU. rewrite app_nth2 by lia.
      match goal with |- context [nth ?i R ?d] => assert (In (nth i R d) R) as X by (apply nth_In; lia) end.
      apply HR in X. qc_lra. }
    assert (knot U p = a) as KA.
    { unfold knot. rewrite KU. rewrite app_nth1 by lia. unfold A. rewrite app_nth1 by (rewrite repeat_length; lia).
      match goal with |- nth ?i ?l ?d = _ => assert (In (nth i l d) l) as X by (apply nth_In; rewrite repeat_length; lia) end.
      apply repeat_spec in X. exact X. }
    assert (knot U (n + 1) = b) as KB.
    { unfold knot. rewrite KU. rewrite app_nth2 by lia. unfold R. rewrite app_nth2 by lia.
      match goal with |- nth ?i ?l ?d = _ => assert (In (nth i l d) l) as X by (apply nth_In; rewrite repeat_length; lia) end.
      apply repeat_spec in X. exact X. }
    assert (tol12 < b - t) as GB by (apply HR; unfold R; apply in_or_app; right; rewrite Nat.add_1_r; left; reflexivity).
    assert (multiplicity U t = m) as MU.
    { rewrite KU. unfold A. rewrite !mult_app, mult_repeat. rewrite (mult_not (repeat a _)), (mult_not R); [lia| |].
      - intros X. apply HR in X. qc_lra.
      - intros X. apply repeat_spec in X. subst t. qc_lra. }
    destruct (split_ok c n t (p + m)) as (c1 & c2 & E & P1 & P2 & KV1 & KV2 & _); try assumption.
    { fold p; lia. } { fold p; lia. } { fold U; rewrite KT; apply Qcle_refl. }
    { fold U p; rewrite KA; qc_lra. } { fold U; rewrite KB; qc_lra. }
    { fold U. rewrite KU. intros x Hx. apply in_app_or in Hx. destruct Hx as [Hx|Hx].
      - unfold A in Hx. apply in_app_or in Hx. destruct Hx as [Hx|Hx]; apply repeat_spec in Hx; subst x; [right; right; exact G1|left; reflexivity].
      - right. left. apply HR. exact Hx. }
    { fold U p. rewrite MU. lia. }
    fold U p in P1, P2, KV1, KV2. rewrite MU in KV1.
    assert (firstn (p + m + 1) U = A) as FA by (rewrite KU; apply firstn_app_exact; lia).
    assert (skipn (p + m + 1) U = R) as SR by (rewrite KU; apply skipn_app_exact; lia).
    rewrite FA in KV1. rewrite SR in KV2.
    assert (nc_degree c2 = p /\ interval_current c2 /\ (forall q, In q (nc_cps c2) -> inside (nc_aabb c2) (xyz q))) as (DC2 & IC2 & BX2).
    { destruct P2 as (m2 & X1 & X2 & X3 & X4 & X5 & X6 & X7 & X8 & X9 & X10). auto. }
    apply (part_traces c c1 n) in P1; try assumption; [|apply Qcle_refl|fold U; rewrite KB; qc_lra].
    apply (part_traces c c2 n) in P2; try assumption; [|fold U p; rewrite KA; qc_lra|apply Qcle_refl].
    rewrite KA in P1. rewrite KB in P2.
    pose proof P2 as (m2 & G2' & D2 & W2 & I2 & _).
    destruct (IH c2 m2 t) as (pieces & ED & CH); try assumption.
    { rewrite DC2. exact H1. } { rewrite DC2. exact KV2. }
    { rewrite DC2. intros t' m' I'. apply (HM t'). right. exact I'. }
    exists (c1 :: pieces). cbn [map fst decompose_loop].
    assert (nc_copy c2 = c2) as CC by (destruct c2; reflexivity). rewrite E. cbn [bind]. rewrite CC, ED. cbn [bind].
    split; [reflexivity|]. cbn [app bezier_chain]. split; [|split; [|split]].
    + rewrite KV1. unfold A. rewrite <- app_assoc. f_equal. change [t] with (repeat t 1). rewrite <- !repeat_app. f_equal. fold p. lia.
    + destruct P1 as (m1 & (Lc1 & (Vc1 & Vc2 & _) & _) & Dc1 & _). rewrite Lc1. rewrite KV1, Dc1 in Vc2. unfold A in Vc2.
      rewrite !app_length, !repeat_length in Vc2. cbn [length] in Vc2. fold p in Vc2. fold p. lia.
    + exact P1.
    + eapply chain_trans with (t := c2); [rewrite DC2; reflexivity|exact CH|exact P2|apply Qcle_refl| |].
      * intros x Hx. apply in_app_or in Hx. destruct Hx as [Hx|[<-|[]]]; [|apply Qcle_refl].
        assert (forall l y, gaps y (l ++ [b]) -> forall x, In x l -> x <= b) as GLB.
        { clear. induction l as [|z l IHl]; intros y Hg x Hx; [destruct Hx|]. destruct Hg as [g1 g2]. destruct Hx as [<-|Hx].
          - pose proof (gaps_lower _ _ b g2 ltac:(apply in_or_app; right; left; reflexivity)). pose proof tol12_pos. qc_lra.
          - eapply IHl; eassumption. }
        eapply GLB; eassumption.
      * apply gaps_strict. exact G2.
Qed.

Lemma decompose_top c n a mids b :
  good_curve c n -> (1 <= nc_degree c)%nat -> unit_weights (nc_cps c) ->
  (forall q, In q (nc_cps c) -> inside (nc_aabb c) (xyz q)) ->
  nc_knots c = repeat a (nc_degree c + 1) ++ runs mids ++ repeat b (nc_degree c + 1) ->
  gaps a (map fst mids ++ [b]) -> (forall t m, In (t, m) mids -> (1 <= m <= nc_degree c)%nat) ->
  exists pieces, decompose c = Ok pieces /\ length pieces = S (length mids) /\ bezier_chain c a (map fst mids ++ [b]) pieces.
Proof.
  intros GC H1 UW HB K G HM. pose proof GC as (L & V & H8). pose proof V as (V1 & V2 & V3 & V4).
  assert (nc_copy c = c) as EC by (destruct c; reflexivity).
  unfold decompose. rewrite EC. rewrite update_interval_sorted; [|exact V3|intros F; rewrite F in V2; cbn in V2; lia]. cbn [bind].
  set (c' := nc_set_interval c _).
  assert (nc_knots c' = nc_knots c) as -> by reflexivity.
  assert (uniqueKnots (nc_knots c) = a :: map fst mids ++ [b]) as ->.
  { apply strict_unique.
    - apply unique_loop_sorted. apply sorted_Strongly. exact V3.
    - apply gaps_strict. exact G.
    - intros x. unfold uniqueKnots. rewrite unique_loop_in. rewrite K. rewrite Nat.add_1_r. split.
      + intros [I _]. apply in_app_or in I. destruct I as [I|I]; [apply repeat_spec in I; left; auto|].
        right. apply in_or_app. apply in_app_or in I. destruct I as [I|I]; [left; apply in_runs; exact I|].
        right. apply repeat_spec in I. left. auto.
      + intros I. split; [|intros []]. destruct I as [<-|I]; [left; reflexivity|].
        apply in_app_or in I. apply in_or_app. right. apply in_or_app. destruct I as [I|[<-|[]]].
        * left. apply in_runs_inv; [|exact I]. intros y m Y. specialize (HM y m Y). lia.
        * right. left. reflexivity. }
  destruct (decompose_loop_ok b mids c' n a) as (pieces & E & CH); try assumption.
  { reflexivity. }
  exists pieces.
  assert (removelast (map fst mids ++ [b]) = map fst mids) as RL by apply removelast_last.
  assert (bezier_chain c a (map fst mids ++ [b]) pieces) as CH'.
  { revert CH. generalize (map fst mids ++ [b]) as ks. intros ks. generalize a. clear. revert pieces.
    induction ks as [|k ks IH]; intros [|q ps] a; cbn; auto. intros (A & B & C & D). split; [exact A|]. split; [exact B|]. split; [exact C|]. apply IH. exact D. }
  split; [|split; [|exact CH']].
  - destruct (map fst mids ++ [b]) as [|k0 rest] eqn:EK; [destruct (map fst mids); discriminate|]. rewrite RL. exact E.
  - assert (forall ks lo ps, bezier_chain c lo ks ps -> length ps = length ks) as LN.
    { clear. induction ks as [|k ks IH]; intros lo [|q ps]; cbn; try tauto. intros (_ & _ & _ & H). f_equal. eapply IH. exact H. }
    rewrite (LN _ _ _ CH'). rewrite app_length, map_length. cbn. lia.
Qed.
