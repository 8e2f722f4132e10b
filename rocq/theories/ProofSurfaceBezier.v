(** A clamped surface decomposes into Bezier patches. *)
From Coq Require Import List ZArith QArith Qcanon Lia Bool Sorted.
From Verif Require Import Base BaseFacts LoopFacts ModelVec ModelAabb ModelNurbs ModelSurface ModelSurface2 SpecAabb SpecNurbs SpecCurve SpecSurface SpecDerivative SpecSurface2
  ProofBspline ProofNurbs ProofInsertCurve ProofSplit ProofNurbsMisc ProofDecompose ProofSurfaceSums ProofSurface ProofSurfaceOps ProofSurfaceTop.
Import ListNotations.
Open Scope Qc_scope.

Lemma tol7 : tol12 < lit_1em7. Proof. reflexivity. Qed.
Lemma tol7_pos : 0 < lit_1em7. Proof. reflexivity. Qed.

Lemma gaps7_lower l : forall x y, gaps7 x l -> In y l -> lit_1em7 < y - x.
Proof.
  induction l as [|z l IH]; intros x y G I; [destruct I|]. destruct G as [G1 G2].
  destruct I as [<-|I]; [exact G1|]. specialize (IH z y G2 I). pose proof tol7_pos. qc_lra.
Qed.
Lemma gaps7_gaps l : forall x, gaps7 x l -> gaps x l.
Proof. induction l; intros x H; [exact I|]. destruct H as [A B]. pose proof tol7. split; [qc_lra|auto]. Qed.

Lemma nth_repeat_in {A} (x d : A) i m : (i < m)%nat -> nth i (repeat x m) d = x.
Proof. intros H. assert (In (nth i (repeat x m) d) (repeat x m)) as X by (apply nth_In; rewrite repeat_length; lia). apply repeat_spec in X. exact X. Qed.

(** splitting a clamped knot vector at its first interior knot *)
Section Step.
Context (U : list Qc) (n p : nat) (a t b : Qc) (m : nat) (mids : list (Qc * nat)).
Context (V : valid_knots n p U) (K : knots_are U p a ((t, m) :: mids) b).
Let k := (p + m)%nat.

Lemma step_facts :
  (p <= k <= n)%nat /\ knot U k <= t /\ t < knot U (S k) /\ knot U p = a /\ knot U (n + 1) = b /\ knot U 0 = a /\ knot U (length U - 1) = b /\
  lit_1em7 < t - a /\ lit_1em7 < b - t /\ separated U t /\ (multiplicity U t <= p)%nat /\
  split_left U p k t = repeat a (p + 1) ++ repeat t (p + 1) /\ knots_are (split_right U p k t) p t mids b.
Proof.
  destruct K as (KU0 & G & HM). destruct V as (V1 & V2 & V3 & V4). cbn [map fst app] in G. destruct G as [G1 G2].
  assert (1 <= m <= p)%nat as Hm by (apply (HM t); left; reflexivity).
  cbn [runs flat_map fst snd] in KU0. fold (runs mids) in KU0.
  set (A := repeat a (p + 1) ++ repeat t m). set (R := runs mids ++ repeat b (p + 1)).
  assert (U = A ++ R) as KU by (rewrite KU0; unfold A, R; rewrite !app_assoc; reflexivity).
  assert (length A = p + 1 + m)%nat as LA by (unfold A; rewrite app_length, !repeat_length; lia).
  assert (length R = length (runs mids) + (p + 1))%nat as LR by (unfold R; rewrite app_length, repeat_length; lia).
  assert (length U = p + 1 + m + (length (runs mids) + (p + 1)))%nat as LU by (rewrite KU, app_length; lia).
  assert (forall x, In x R -> lit_1em7 < x - t) as HR.
  { intros x Hx. apply (gaps7_lower _ _ _ G2). unfold R in Hx. apply in_app_or in Hx. apply in_or_app. destruct Hx as [Hx|Hx].
    - left. apply in_runs. exact Hx.
    - right. apply repeat_spec in Hx. left. auto. }
  pose proof tol7_pos as TP. pose proof tol7 as T12.
  assert (lit_1em7 < b - t) as GB by (apply HR; unfold R; apply in_or_app; right; rewrite Nat.add_1_r; left; reflexivity).
  assert (multiplicity U t = m) as MU.
  { rewrite KU. unfold A. rewrite !mult_app, mult_repeat. rewrite (mult_not (repeat a _)), (mult_not R); [lia| |].
    - intros X. apply HR in X. qc_lra.
    - intros X. apply repeat_spec in X. subst t. qc_lra. }
  unfold k. split; [lia|].
  assert (knot U (p + m) = t) as KT.
  { unfold knot. rewrite KU. rewrite app_nth1 by lia. unfold A. rewrite app_nth2 by (rewrite repeat_length; lia). rewrite repeat_length. apply nth_repeat_in. lia. }
  split; [rewrite KT; apply Qcle_refl|]. split.
  { unfold knot. rewrite KU. rewrite app_nth2 by lia.
    match goal with |- context [nth ?i R ?d] => assert (In (nth i R d) R) as X by (apply nth_In; lia) end. apply HR in X. qc_lra. }
  assert (forall i, (i < p + 1)%nat -> knot U i = a) as KA.
  { intros i Hi. unfold knot. rewrite KU. rewrite app_nth1 by lia. unfold A. rewrite app_nth1 by (rewrite repeat_length; lia). apply nth_repeat_in. lia. }
  assert (forall i, (p + 1 + m + length (runs mids) <= i < length U)%nat -> knot U i = b) as KB.
  { intros i Hi. unfold knot. rewrite KU. rewrite app_nth2 by lia. unfold R. rewrite app_nth2 by lia. apply nth_repeat_in. lia. }
  split; [apply KA; lia|]. split; [apply KB; lia|]. split; [apply KA; lia|]. split; [apply KB; lia|].
  split; [exact G1|]. split; [exact GB|]. split.
  { rewrite KU. intros x Hx. apply in_app_or in Hx. destruct Hx as [Hx|Hx].
    - unfold A in Hx. apply in_app_or in Hx. destruct Hx as [Hx|Hx]; apply repeat_spec in Hx; subst x; [right; right; qc_lra|left; reflexivity].
    - right. left. apply HR in Hx. qc_lra. }
  split; [lia|].
  assert (firstn (p + m + 1) U = A) as FA by (rewrite KU; apply firstn_app_exact; lia).
  assert (skipn (p + m + 1) U = R) as SR by (rewrite KU; apply skipn_app_exact; lia).
  unfold split_left, split_right, ins_knots. rewrite MU, FA, SR. split.
  - rewrite app_assoc. rewrite firstn_app_exact by (rewrite app_length, repeat_length; lia). unfold A. rewrite <- !app_assoc. f_equal.
    change [t] with (repeat t 1). rewrite <- !repeat_app. f_equal. lia.
  - rewrite app_assoc. rewrite skipn_app_exact by (rewrite app_length, repeat_length; lia). split; [reflexivity|]. split; [exact G2|].
    intros t' m' I. apply (HM t'). right. exact I.
Qed.
End Step.

(** end of the recursion: a single span *)
Lemma last_facts U n p a b : valid_knots n p U -> knots_are U p a [] b -> knot U p = a /\ knot U (n + 1) = b /\ n = p /\ lit_1em7 < b - a.
Proof.
  intros (V1 & V2 & V3 & V4) (K & [G _] & _). cbn [runs flat_map app] in K.
  assert (length U = 2 * p + 2)%nat as L by (rewrite K, app_length, !repeat_length; lia).
  split; [|split; [|split; [lia|exact G]]]; unfold knot; rewrite K.
  - rewrite app_nth1 by (rewrite repeat_length; lia). apply nth_repeat_in. lia.
  - rewrite app_nth2 by (rewrite repeat_length; lia). apply nth_repeat_in. rewrite repeat_length. lia.
Qed.

Lemma sub_refl s n m : good_surf s n m -> positive_surf s -> intervals_current s -> sub_surf s s n m n m (lo_u s) (hi_u s n) (lo_v s) (hi_v s m).
Proof. intros G W I. repeat (split; [assumption || reflexivity|]). intros; reflexivity. Qed.
Lemma sub_trans q t s n m n' m' n'' m'' a b c d a' b' c' d' :
  sub_surf q t n' m' n'' m'' a b c d -> sub_surf t s n m n' m' a' b' c' d' -> a' <= a -> b <= b' -> c' <= c -> d <= d' ->
  sub_surf q s n m n'' m'' a b c d.
Proof.
  intros (A1 & A2 & A3 & A4 & A5 & A6 & A7 & A8 & A9 & A10) (B1 & B2 & B3 & B4 & B5 & B6 & B7 & B8 & B9 & B10) H1 H2 H3 H4.
  split; [assumption|]. split; [congruence|]. split; [congruence|]. do 6 (split; [assumption|]).
  intros u v U1 U2 W1 W2 f Hf. rewrite A10 by assumption. apply B10; try assumption; eapply Qcle_trans; eassumption.
Qed.

(** pieces over consecutive intervals in one direction *)
Fixpoint chain_u (s : nsurf) (n m : nat) (lo : Qc) (ks : list Qc) (pieces : list nsurf) : Prop :=
  match ks, pieces with
  | [], [] => True
  | hi :: ks', q :: ps' =>
      ns_ku q = repeat lo (ns_du s + 1) ++ repeat hi (ns_du s + 1) /\ ns_kv q = ns_kv s /\
      sub_surf q s n m (ns_du s) m lo hi (lo_v s) (hi_v s m) /\ chain_u s n m hi ks' ps'
  | _, _ => False
  end.
Fixpoint chain_v (s : nsurf) (n m : nat) (lo : Qc) (ks : list Qc) (pieces : list nsurf) : Prop :=
  match ks, pieces with
  | [], [] => True
  | hi :: ks', q :: ps' =>
      ns_kv q = repeat lo (ns_dv s + 1) ++ repeat hi (ns_dv s + 1) /\ ns_ku q = ns_ku s /\
      sub_surf q s n m n (ns_dv s) (lo_u s) (hi_u s n) lo hi /\ chain_v s n m hi ks' ps'
  | _, _ => False
  end.

Lemma gaps7_le b : forall l y, gaps7 y (l ++ [b]) -> forall x, In x (l ++ [b]) -> y <= x /\ x <= b.
Proof.
  pose proof tol7_pos. induction l as [|z l IH]; intros y G x Hx; cbn [app] in *.
  - destruct G as [G _]. destruct Hx as [<-|[]]. split; [qc_lra|apply Qcle_refl].
  - destruct G as [G1 G2]. destruct Hx as [<-|Hx].
    + split; [qc_lra|]. apply (IH z G2 b). apply in_or_app. right. left. reflexivity.
    + destruct (IH z G2 x Hx) as [A B]. split; [qc_lra|exact B].
Qed.

Lemma chain_u_trans t s n m n' b c : forall ks lo ps, ns_du t = ns_du s -> ns_kv t = ns_kv s -> ns_dv t = ns_dv s ->
  chain_u t n' m lo (ks ++ [b]) ps -> sub_surf t s n m n' m c b (lo_v s) (hi_v s m) -> c <= lo -> gaps7 lo (ks ++ [b]) ->
  chain_u s n m lo (ks ++ [b]) ps.
Proof.
  assert (forall ks lo ps, (forall x, In x ks -> x <= b) -> gaps7 lo ks -> ns_du t = ns_du s -> ns_kv t = ns_kv s -> ns_dv t = ns_dv s ->
    chain_u t n' m lo ks ps -> sub_surf t s n m n' m c b (lo_v s) (hi_v s m) -> c <= lo -> chain_u s n m lo ks ps) as K.
  { induction ks as [|hi ks IH]; intros lo [|q ps] B G D1 D2 D3 H T L; cbn [chain_u] in *; try tauto.
    destruct H as (A1 & A2 & A3 & A4). destruct G as [G1 G2]. pose proof tol7_pos. rewrite <- D1. split; [exact A1|]. split; [congruence|]. split.
    - unfold lo_v, hi_v in *. rewrite D2, D3 in A3. eapply sub_trans; [exact A3|exact T|exact L| |apply Qcle_refl|apply Qcle_refl]. apply B. left. reflexivity.
    - apply IH; try assumption; [intros x Hx; apply B; right; exact Hx|qc_lra]. }
  intros ks lo ps D1 D2 D3 H T L G. apply K; try assumption. intros x Hx. apply (gaps7_le b ks lo G x Hx).
Qed.
Lemma chain_v_trans t s n m m' b c : forall ks lo ps, ns_dv t = ns_dv s -> ns_ku t = ns_ku s -> ns_du t = ns_du s ->
  chain_v t n m' lo (ks ++ [b]) ps -> sub_surf t s n m n m' (lo_u s) (hi_u s n) c b -> c <= lo -> gaps7 lo (ks ++ [b]) ->
  chain_v s n m lo (ks ++ [b]) ps.
Proof.
  assert (forall ks lo ps, (forall x, In x ks -> x <= b) -> gaps7 lo ks -> ns_dv t = ns_dv s -> ns_ku t = ns_ku s -> ns_du t = ns_du s ->
    chain_v t n m' lo ks ps -> sub_surf t s n m n m' (lo_u s) (hi_u s n) c b -> c <= lo -> chain_v s n m lo ks ps) as K.
  { induction ks as [|hi ks IH]; intros lo [|q ps] B G D1 D2 D3 H T L; cbn [chain_v] in *; try tauto.
    destruct H as (A1 & A2 & A3 & A4). destruct G as [G1 G2]. pose proof tol7_pos. rewrite <- D1. split; [exact A1|]. split; [congruence|]. split.
    - unfold lo_u, hi_u in *. rewrite D2, D3 in A3. eapply sub_trans; [exact A3|exact T|apply Qcle_refl|apply Qcle_refl|exact L|]. apply B. left. reflexivity.
    - apply IH; try assumption; [intros x Hx; apply B; right; exact Hx|qc_lra]. }
  intros ks lo ps D1 D2 D3 H T L G. apply K; try assumption. intros x Hx. apply (gaps7_le b ks lo G x Hx).
Qed.

Lemma loop_skip dir k0 k1 s ks : ns_decompose_loop dir k0 k1 s (ks ++ [k1]) = ns_decompose_loop dir k0 k1 s ks.
Proof.
  revert s. induction ks as [|k ks IH]; intros s; cbn [app ns_decompose_loop].
  - destruct (Qceqb_spec k1 k1) as [_|N]; [|contradiction]. rewrite andb_false_r. reflexivity.
  - destruct (negb (k =? k0) && negb (k =? k1)); [|apply IH].
    destruct (if dir then ns_split_u s k lit_1em7 else ns_split_v s k lit_1em7) as [[x y]| |]; cbn [bind]; try reflexivity. rewrite IH. reflexivity.
Qed.

Lemma loop_u_ok k0 b : forall mids s n m a,
  good_surf s n m -> positive_surf s -> intervals_current s -> (1 <= ns_du s)%nat ->
  knots_are (ns_ku s) (ns_du s) a mids b -> k0 <= a ->
  exists pieces, ns_decompose_loop true k0 b s (map fst mids) = Ok pieces /\ chain_u s n m a (map fst mids ++ [b]) pieces.
Proof.
  induction mids as [|[t mu] mids IH]; intros s n m a G W IC H1 K K0; pose proof G as (G1 & G2 & G3 & G4 & VU & VV & H8 & H8').
  - destruct (last_facts _ _ _ _ _ VU K) as (KA & KB & EN & _). exists [s]. split; [reflexivity|]. cbn [map app chain_u].
    split; [exact (proj1 K)|]. split; [reflexivity|]. split; [|exact I]. subst n.
    pose proof (sub_refl s (ns_du s) m G W IC) as SR. unfold lo_u, hi_u in SR. rewrite KA, KB in SR. exact SR.
  - destruct (step_facts _ _ _ _ _ _ _ _ VU K) as (Hk & T1 & T2 & KA & KB & K00 & KL & GA & GB & SEP & HM & SL & SR).
    pose proof tol7_pos as TP. destruct K as (_ & (_ & GG) & _).
    destruct (split_u_ok s n m t lit_1em7 (ns_du s + mu) G W IC H1) as (s1 & s2 & n1 & n2 & E & EV1 & EV2 & KU1 & KU2 & S1 & S2); try assumption.
    { apply at_edge_false; rewrite (proj1 IC), ?K00, ?KL; cbn [fst snd]; qc_lra. }
    { unfold lo_u. rewrite KA. qc_lra. }
    unfold lo_u, hi_u in S1, S2. rewrite KA in S1. rewrite KB in S2.
    pose proof S2 as (GS2 & D2 & D2' & W2 & I2 & _).
    rewrite <- KU2, <- D2 in SR.
    destruct (IH s2 n2 m t GS2 W2 I2) as (pieces & ED & CH); [rewrite D2; exact H1|exact SR|qc_lra|].
    exists (s1 :: pieces). cbn [map fst ns_decompose_loop].
    destruct (Qceqb_spec t k0) as [->|_]; [exfalso; qc_lra|]. destruct (Qceqb_spec t b) as [->|_]; [exfalso; qc_lra|].
    cbn [negb andb]. rewrite E. cbn [bind]. rewrite ED. cbn [bind]. split; [reflexivity|]. cbn [app chain_u].
    split; [rewrite KU1; exact SL|]. split; [exact EV1|]. split.
    + assert (n1 = ns_du s) as <-; [|exact S1]. pose proof S1 as ((_ & _ & _ & _ & (_ & LK & _) & _) & DD & _).
      rewrite KU1, SL, DD, app_length, !repeat_length in LK. lia.
    + eapply chain_u_trans; [exact D2|exact EV2|exact D2'|exact CH|exact S2|apply Qcle_refl|exact GG].
Qed.

Lemma loop_v_ok k0 b : forall mids s n m a,
  good_surf s n m -> positive_surf s -> intervals_current s -> (1 <= ns_dv s)%nat ->
  knots_are (ns_kv s) (ns_dv s) a mids b -> k0 <= a ->
  exists pieces, ns_decompose_loop false k0 b s (map fst mids) = Ok pieces /\ chain_v s n m a (map fst mids ++ [b]) pieces.
Proof.
  induction mids as [|[t mu] mids IH]; intros s n m a G W IC H1 K K0; pose proof G as (G1 & G2 & G3 & G4 & VU & VV & H8 & H8').
  - destruct (last_facts _ _ _ _ _ VV K) as (KA & KB & EN & _). exists [s]. split; [reflexivity|]. cbn [map app chain_v].
    split; [exact (proj1 K)|]. split; [reflexivity|]. split; [|exact I]. subst m.
    pose proof (sub_refl s n (ns_dv s) G W IC) as SR. unfold lo_v, hi_v in SR. rewrite KA, KB in SR. exact SR.
  - destruct (step_facts _ _ _ _ _ _ _ _ VV K) as (Hk & T1 & T2 & KA & KB & K00 & KL & GA & GB & SEP & HM & SL & SR).
    pose proof tol7_pos as TP. destruct K as (_ & (_ & GG) & _).
    destruct (split_v_ok s n m t lit_1em7 (ns_dv s + mu) G W H1) as (s1 & s2 & n1 & n2 & E & EV1 & EV2 & KU1 & KU2 & S1 & S2); try assumption.
    { apply at_edge_false; rewrite (proj2 IC), ?K00, ?KL; cbn [fst snd]; qc_lra. }
    { unfold lo_v. rewrite KA. qc_lra. }
    unfold lo_v, hi_v in S1, S2. rewrite KA in S1. rewrite KB in S2.
    pose proof S2 as (GS2 & D2' & D2 & W2 & I2 & _).
    rewrite <- KU2, <- D2 in SR.
    destruct (IH s2 n n2 t GS2 W2 I2) as (pieces & ED & CH); [rewrite D2; exact H1|exact SR|qc_lra|].
    exists (s1 :: pieces). cbn [map fst ns_decompose_loop].
    destruct (Qceqb_spec t k0) as [->|_]; [exfalso; qc_lra|]. destruct (Qceqb_spec t b) as [->|_]; [exfalso; qc_lra|].
    cbn [negb andb]. rewrite E. cbn [bind]. rewrite ED. cbn [bind]. split; [reflexivity|]. cbn [app chain_v].
    split; [rewrite KU1; exact SL|]. split; [exact EV1|]. split.
    + assert (n1 = ns_dv s) as <-; [|exact S1]. pose proof S1 as ((_ & _ & _ & _ & _ & (_ & LK & _) & _) & _ & DD & _).
      rewrite KU1, SL, DD, app_length, !repeat_length in LK. lia.
    + eapply chain_v_trans; [exact D2|exact EV2|exact D2'|exact CH|exact S2|apply Qcle_refl|exact GG].
Qed.

Lemma unique_are U p a mids b : sorted U -> knots_are U p a mids b -> uniqueKnots U = a :: map fst mids ++ [b].
Proof.
  intros So (K & G & HM). apply strict_unique.
  - apply unique_loop_sorted. apply sorted_Strongly. exact So.
  - apply gaps_strict. apply gaps7_gaps. exact G.
  - intros x. unfold uniqueKnots. rewrite unique_loop_in. rewrite K. rewrite Nat.add_1_r. split.
    + intros [I _]. apply in_app_or in I. destruct I as [I|I]; [apply repeat_spec in I; left; auto|].
      right. apply in_or_app. apply in_app_or in I. destruct I as [I|I]; [left; apply in_runs; exact I|].
      right. apply repeat_spec in I. left. auto.
    + intros I. split; [|intros []]. destruct I as [<-|I]; [left; reflexivity|].
      apply in_app_or in I. apply in_or_app. right. apply in_or_app. destruct I as [I|[<-|[]]].
      * left. apply in_runs_inv; [|exact I]. intros y m Y. specialize (HM y m Y). lia.
      * right. left. reflexivity.
Qed.

Lemma update_current s n m : good_surf s n m -> intervals_current s -> ns_update_interval s = Ok s.
Proof.
  intros (_ & _ & _ & _ & VU & VV & _) (I1 & I2). unfold ns_update_interval.
  rewrite !range_ok by (eapply valid_nonempty; eassumption). cbn [bind]. destruct s as [a1 a2 a3 a4 a5 a6 a7 a8 a9 a10 a11]. cbn in *. congruence.
Qed.

Lemma last_cons_app (a b d : Qc) l : last (a :: l ++ [b]) d = b.
Proof. change (a :: l ++ [b]) with ((a :: l) ++ [b]). apply last_last. Qed.

Lemma dir_u_ok s n m a mids b : good_surf s n m -> positive_surf s -> intervals_current s -> (1 <= ns_du s)%nat ->
  knots_are (ns_ku s) (ns_du s) a mids b ->
  exists pieces, ns_decompose_dir true s = Ok pieces /\ chain_u s n m a (map fst mids ++ [b]) pieces.
Proof.
  intros G W IC H1 K. unfold ns_decompose_dir. rewrite (update_current s n m) by assumption. cbn [bind].
  pose proof G as (_ & _ & _ & _ & (_ & _ & So & _) & _). rewrite (unique_are _ _ _ _ _ So K).
  rewrite last_cons_app. cbn [ns_decompose_loop]. destruct (Qceqb_spec a a) as [_|N]; [|contradiction]. cbn [negb andb]. rewrite loop_skip.
  apply loop_u_ok; try assumption. apply Qcle_refl.
Qed.
Lemma dir_v_ok s n m a mids b : good_surf s n m -> positive_surf s -> intervals_current s -> (1 <= ns_dv s)%nat ->
  knots_are (ns_kv s) (ns_dv s) a mids b ->
  exists pieces, ns_decompose_dir false s = Ok pieces /\ chain_v s n m a (map fst mids ++ [b]) pieces.
Proof.
  intros G W IC H1 K. unfold ns_decompose_dir. rewrite (update_current s n m) by assumption. cbn [bind].
  pose proof G as (_ & _ & _ & _ & _ & (_ & _ & So & _) & _). rewrite (unique_are _ _ _ _ _ So K).
  rewrite last_cons_app. cbn [ns_decompose_loop]. destruct (Qceqb_spec a a) as [_|N]; [|contradiction]. cbn [negb andb]. rewrite loop_skip.
  apply loop_v_ok; try assumption. apply Qcle_refl.
Qed.

Lemma chain_u_length s n m : forall ks lo ps, chain_u s n m lo ks ps -> length ps = length ks.
Proof. induction ks as [|hi ks IH]; intros lo [|q ps]; cbn; try tauto. intros (_ & _ & _ & H). f_equal. eapply IH. exact H. Qed.
Lemma chain_v_length s n m : forall ks lo ps, chain_v s n m lo ks ps -> length ps = length ks.
Proof. induction ks as [|hi ks IH]; intros lo [|q ps]; cbn; try tauto. intros (_ & _ & _ & H). f_equal. eapply IH. exact H. Qed.
Lemma chain_v_nth s n m : forall ks lo ps j, chain_v s n m lo ks ps -> (j < length ks)%nat -> exists q, nth_error ps j = Some q /\
  ns_kv q = repeat (nth j (lo :: ks) 0) (ns_dv s + 1) ++ repeat (nth (S j) (lo :: ks) 0) (ns_dv s + 1) /\ ns_ku q = ns_ku s /\
  sub_surf q s n m n (ns_dv s) (lo_u s) (hi_u s n) (nth j (lo :: ks) 0) (nth (S j) (lo :: ks) 0).
Proof.
  induction ks as [|hi ks IH]; intros lo [|q ps] j H Hj; cbn [chain_v length] in *; try tauto; try lia. destruct H as (A & B & C & D).
  destruct j as [|j]; [exists q; cbn; auto|]. destruct (IH hi ps j D ltac:(lia)) as (q' & X). exists q'. exact X.
Qed.


Lemma grid_ok s n m mv c d : good_surf s n m -> positive_surf s -> (1 <= ns_dv s)%nat -> knots_are (ns_kv s) (ns_dv s) c mv d ->
  forall ks lo strips, chain_u s n m lo ks strips -> (forall x, In x ks -> x <= hi_u s n) -> lo_u s <= lo -> gaps7 lo ks ->
  exists parts, mapM (ns_decompose_dir false) strips = Ok parts /\ length (concat parts) = (length ks * S (length mv))%nat /\
    forall i j, (i < length ks)%nat -> (j <= length mv)%nat -> exists q, nth_error (concat parts) (i * S (length mv) + j) = Some q /\
      bezier_patch q s (nth i (lo :: ks) 0) (nth (S i) (lo :: ks) 0) (nth j (c :: map fst mv ++ [d]) 0) (nth (S j) (c :: map fst mv ++ [d]) 0).
Proof.
  intros G W H1 K. pose proof G as (_ & _ & _ & _ & VU & VV & _).
  assert (knot (ns_kv s) (ns_dv s) = c /\ knot (ns_kv s) (m + 1) = d) as [KC KD].
  { destruct mv as [|[t mu] mv].
    - destruct (last_facts _ _ _ _ _ VV K) as (A & B & _). auto.
    - destruct (step_facts _ _ _ _ _ _ _ _ VV K) as (_ & _ & _ & A & B & _). auto. }
  induction ks as [|hi ks IH]; intros lo [|q strips] H HB HL GA; cbn [chain_u] in H; try tauto.
  - exists []. split; [reflexivity|]. split; [reflexivity|]. intros i j Hi. cbn in Hi. lia.
  - destruct H as (A & B & C & D). destruct GA as [GA1 GA2]. pose proof tol7_pos as TP.
    destruct (IH hi strips D) as (parts & E & LN & P); [intros x Hx; apply HB; right; exact Hx|qc_lra|exact GA2|].
    pose proof C as (GQ & DU & DV & WQ & IQ & KU1 & KU2 & KV1 & KV2 & _).
    assert (knots_are (ns_kv q) (ns_dv q) c mv d) as KQ by (rewrite B, DV; exact K).
    destruct (dir_v_ok q _ _ c mv d GQ WQ IQ) as (ps & ED & CH); [rewrite DV; exact H1|exact KQ|].
    exists (ps :: parts). cbn [mapM]. rewrite ED. cbn [bind]. rewrite E. cbn [bind]. split; [reflexivity|]. cbn [concat].
    pose proof (chain_v_length _ _ _ _ _ _ CH) as LP. rewrite app_length, map_length in LP. cbn [length] in LP.
    split; [rewrite app_length, LP, LN; cbn [length]; lia|].
    intros i j Hi Hj. destruct i as [|i].
    + cbn [Nat.mul Nat.add]. destruct (chain_v_nth _ _ _ _ _ _ j CH) as (r & R1 & R2 & R3 & R4).
      { rewrite app_length, map_length. cbn [length]. lia. }
      exists r. rewrite nth_error_app1 by lia. split; [exact R1|].
      set (vlo := nth j (c :: map fst mv ++ [d]) 0) in *. set (vhi := nth (S j) (c :: map fst mv ++ [d]) 0) in *.
      assert (c <= vlo /\ vhi <= d) as [VL VH].
      { destruct K as (_ & GK & _). split.
        - unfold vlo. destruct j as [|j]; [apply Qcle_refl|]. cbn [nth]. apply (gaps7_le d _ _ GK). apply nth_In. rewrite app_length, map_length. cbn. lia.
        - unfold vhi. cbn [nth]. apply (gaps7_le d _ _ GK). apply nth_In. rewrite app_length, map_length. cbn. lia. }
      change (nth 0 (lo :: hi :: ks) 0) with lo. change (nth 1 (lo :: hi :: ks) 0) with hi.
      pose proof R4 as (GR & _). pose proof GR as (GR1 & GR2 & _).
      split; [rewrite R3; exact A|]. split; [rewrite R2, DV; reflexivity|]. split; [rewrite GR1; lia|]. split; [intros row Hr; rewrite (GR2 _ Hr), DV; lia|].
      assert (lo_u q = lo) as EL by exact KU1. assert (hi_u q (ns_du s) = hi) as EH by exact KU2. rewrite EL, EH in R4.
      eapply (sub_patch r s n m); [exact G|exact W| | | | |].
      * exact HL.
      * apply HB. left. reflexivity.
      * unfold lo_v. rewrite KC. exact VL.
      * unfold hi_v. rewrite KD. exact VH.
      * eapply sub_trans; [exact R4|exact C|apply Qcle_refl|apply Qcle_refl| |].
        { unfold lo_v. rewrite KC. exact VL. } { unfold hi_v. rewrite KD. exact VH. }
    + cbn [length] in Hi. destruct (P i j ltac:(lia) Hj) as (r & R1 & R2). exists r. split; [|exact R2].
      rewrite nth_error_app2 by (rewrite LP; cbn [Nat.mul]; lia). rewrite LP. rewrite <- R1. f_equal. cbn [Nat.mul]. lia.
Qed.

Lemma decompose_surface_top s n m a mu b c mv d :
  good_surf s n m -> positive_surf s -> intervals_current s -> (1 <= ns_du s)%nat -> (1 <= ns_dv s)%nat ->
  knots_are (ns_ku s) (ns_du s) a mu b -> knots_are (ns_kv s) (ns_dv s) c mv d ->
  exists pieces, ns_decompose s = Ok pieces /\ length pieces = (S (length mu) * S (length mv))%nat /\
    forall i j, (i <= length mu)%nat -> (j <= length mv)%nat -> exists q, nth_error pieces (i * S (length mv) + j) = Some q /\
      bezier_patch q s (nth i (a :: map fst mu ++ [b]) 0) (nth (S i) (a :: map fst mu ++ [b]) 0)
                       (nth j (c :: map fst mv ++ [d]) 0) (nth (S j) (c :: map fst mv ++ [d]) 0).
Proof.
  intros G W IC H1 H2 KU KV. unfold ns_decompose. pose proof G as (_ & _ & _ & _ & VU & VV & _).
  destruct (dir_u_ok s n m a mu b G W IC H1 KU) as (strips & E & CH). rewrite E. cbn [bind].
  assert (knot (ns_ku s) (ns_du s) = a /\ knot (ns_ku s) (n + 1) = b) as [KA KB].
  { destruct mu as [|[t x] mu].
    - destruct (last_facts _ _ _ _ _ VU KU) as (A & B & _). auto.
    - destruct (step_facts _ _ _ _ _ _ _ _ VU KU) as (_ & _ & _ & A & B & _). auto. }
  destruct KU as (KU1 & KU2 & KU3).
  destruct (grid_ok s n m mv c d G W H2 KV _ _ _ CH) as (parts & EP & LN & P).
  { intros x Hx. unfold hi_u. rewrite KB. apply (gaps7_le b _ _ KU2 x Hx). }
  { unfold lo_u. rewrite KA. apply Qcle_refl. }
  { exact KU2. }
  rewrite EP. cbn [bind]. exists (concat parts). split; [reflexivity|].
  assert (length (map fst mu ++ [b]) = S (length mu)) as LL by (rewrite app_length, map_length; cbn; lia). rewrite LL in LN, P.
  split; [exact LN|]. intros i j Hi Hj. apply P; lia.
Qed.
