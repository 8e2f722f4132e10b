From Coq Require Import List ZArith QArith Qcanon Permutation Lia Bool Lqa.
From Verif Require Import Base BaseFacts ModelVec ModelKd SpecKd.
Import ListNotations.
Open Scope Qc_scope.

Fixpoint elems (t : kdtree) : list vec3 :=
  match t with
  | KNull => []
  | KNode p _ l r => p :: elems l ++ elems r
  end.

(** Search-tree invariant: ties may be on either side. *)
Fixpoint kd_ok (t : kdtree) : Prop :=
  match t with
  | KNull => True
  | KNode p ax l r =>
      (forall q, In q (elems l) -> coord q ax <= coord p ax) /\
      (forall q, In q (elems r) -> coord p ax <= coord q ax) /\
      kd_ok l /\ kd_ok r
  end.

Lemma div2_lt n : (0 < n -> Nat.div2 n < n)%nat.
Proof. intros. apply Nat.lt_div2. assumption. Qed.

Lemma build_spec nth_elt :
  nth_element_spec nth_elt ->
  forall fuel pts depth, (length pts <= fuel)%nat ->
  exists t, buildKDTree nth_elt fuel pts depth = Some t /\ Permutation pts (elems t) /\ kd_ok t.
Proof.
  intros Hn. induction fuel as [|fuel IH]; intros pts depth HL.
  - destruct pts; [|cbn in HL; lia]. exists KNull. cbn. auto.
  - destruct pts as [|p0 pts0] eqn:Ep; [exists KNull; cbn; auto|].
    rewrite <- Ep in *. assert (Hpos : (0 < length pts)%nat) by (subst; cbn; lia).
    assert (Hmid := div2_lt _ Hpos).
    destruct (nth_elt (axis_of_depth depth) (Nat.div2 (length pts)) pts) as [[before m] after] eqn:En.
    destruct (Hn _ _ _ _ _ _ Hmid En) as (HP & Hlen & Hb & Ha).
    assert (HL2 := Permutation_length HP). rewrite app_length in HL2. cbn in HL2.
    destruct (IH before (S depth)) as (l & El & Pl & Kl); [lia|].
    destruct (IH after (S depth)) as (r & Er & Pr & Kr); [lia|].
    exists (KNode m (axis_of_depth depth) l r). split; [|split].
    + rewrite Ep. cbn [buildKDTree]. rewrite <- Ep. rewrite En, El, Er. reflexivity.
    + cbn [elems]. rewrite HP, Pl, Pr. symmetry. apply Permutation_middle.
    + cbn [kd_ok]. repeat split; try assumption.
      * intros q Hq. apply Hb. eapply Permutation_in; [symmetry; exact Pl | exact Hq].
      * intros q Hq. apply Ha. eapply Permutation_in; [symmetry; exact Pr | exact Hq].
Qed.

Lemma insert_spec t p depth size :
  kd_ok t ->
  let '(t', n) := insertRec t p depth size in
  Permutation (p :: elems t) (elems t') /\ kd_ok t' /\ n = S size.
Proof.
  revert depth. induction t as [|q ax l IHl r IHr]; intros depth Hok.
  - cbn. repeat split; auto; intros ? [].
  - cbn [kd_ok] in Hok. destruct Hok as (Hl & Hr & Kl & Kr). cbn [insertRec].
    destruct (coord p ax <? coord q ax) eqn:E.
    + specialize (IHl (S depth) Kl). destruct (insertRec l p (S depth) size) as [l' n].
      destruct IHl as (P & K & ->). split; [|split; [|reflexivity]].
      * cbn [elems]. rewrite perm_swap. apply perm_skip. rewrite <- P. reflexivity.
      * cbn [kd_ok]. repeat split; try assumption.
        intros x Hx. apply (Permutation_in (l' := p :: elems l)) in Hx; [|symmetry; exact P].
        destruct Hx as [<-|Hx]; [qc_lra | apply Hl; assumption].
    + specialize (IHr (S depth) Kr). destruct (insertRec r p (S depth) size) as [r' n].
      destruct IHr as (P & K & ->). split; [|split; [|reflexivity]].
      * cbn [elems]. rewrite perm_swap. apply perm_skip.
        rewrite <- P. apply Permutation_middle.
      * cbn [kd_ok]. repeat split; try assumption.
        intros x Hx. apply (Permutation_in (l' := p :: elems r)) in Hx; [|symmetry; exact P].
        destruct Hx as [<-|Hx]; [qc_lra | apply Hr; assumption].
Qed.

Definition state_ok (s : kdstate) (bag : list vec3) : Prop :=
  kd_ok (kroot s) /\ Permutation bag (elems (kroot s)) /\ ksize s = length bag.

Lemma run_spec nth_elt :
  nth_element_spec nth_elt ->
  forall ops s bag, state_ok s bag ->
  exists s', kd_run nth_elt s ops = Some s' /\ state_ok s' (contents bag ops).
Proof.
  intros Hn. induction ops as [|o ops IH]; intros s bag Hs.
  - exists s. auto.
  - destruct o as [pts|p]; cbn [kd_run kd_step contents].
    + unfold kd_build.
      destruct (build_spec nth_elt Hn (length pts) pts 0 (le_n _)) as (t & -> & P & K).
      apply IH. repeat split; assumption.
    + apply IH. destruct Hs as (K & P & HS). unfold kd_insert.
      assert (HI := insert_spec (kroot s) p 0 (ksize s) K).
      destruct (insertRec (kroot s) p 0 (ksize s)) as [t n]. destruct HI as (P' & K' & ->).
      split; [assumption|]. split.
      * cbn [kroot]. rewrite <- P', P. reflexivity.
      * cbn. rewrite HS. reflexivity.
Qed.

Lemma init_ok : state_ok kd_init [].
Proof. repeat split; constructor. Qed.

(** ** Range search *)

Lemma in_range_b_iff p lower upper : in_range_b p lower upper = true <-> in_box lower upper p.
Proof.
  unfold in_range_b, in_box. rewrite !andb_true_iff, !Qcleb_iff. split.
  - intros (((((A & B) & C) & D) & E) & F) [| |]; cbn; auto.
  - intros H. pose proof (H AX); pose proof (H AY); pose proof (H AZ). cbn in *. tauto.
Qed.

Definition split_by (lower upper : vec3) (l hit miss : list vec3) : Prop :=
  Permutation l (hit ++ miss) /\ (forall p, In p hit -> in_box lower upper p) /\
  (forall p, In p miss -> ~ in_box lower upper p).

Lemma split_all_miss lower upper l : (forall p, In p l -> ~ in_box lower upper p) -> split_by lower upper l [] l.
Proof. intros H. split; [reflexivity|]. split; [intros ? []|assumption]. Qed.

Lemma split_app lower upper l1 h1 m1 l2 h2 m2 :
  split_by lower upper l1 h1 m1 -> split_by lower upper l2 h2 m2 ->
  split_by lower upper (l1 ++ l2) (h1 ++ h2) (m1 ++ m2).
Proof.
  intros (P1 & A1 & B1) (P2 & A2 & B2). split; [|split].
  - rewrite P1, P2. rewrite <- !app_assoc. apply Permutation_app_head.
    rewrite !app_assoc. apply Permutation_app_tail. apply Permutation_app_comm.
  - intros p Hp. apply in_app_or in Hp. destruct Hp; auto.
  - intros p Hp. apply in_app_or in Hp. destruct Hp; auto.
Qed.

Lemma range_spec t lower upper : kd_ok t -> forall acc,
  exists hit miss, rangeSearchRec t lower upper acc = acc ++ hit /\ split_by lower upper (elems t) hit miss.
Proof.
  induction t as [|p ax l IHl r IHr]; intros Hok acc.
  - exists [], []. rewrite app_nil_r. split; [reflexivity|]. split; [constructor|]. split; intros ? [].
  - destruct Hok as (Hl & Hr & Kl & Kr). cbn [rangeSearchRec].
    assert (Hhead : exists h m, (if in_range_b p lower upper then acc ++ [p] else acc) = acc ++ h /\ split_by lower upper [p] h m).
    { destruct (in_range_b p lower upper) eqn:E.
      - exists [p], []. split; [reflexivity|]. apply in_range_b_iff in E. split; [reflexivity|].
        split; [intros x [<-|[]]; assumption | intros x []].
      - exists [], [p]. rewrite app_nil_r. split; [reflexivity|]. split; [reflexivity|].
        split; [intros x []|]. intros x [<-|[]] Hx. apply in_range_b_iff in Hx. congruence. }
    destruct Hhead as (h0 & m0 & -> & S0).
    assert (Hleft : exists h m, (if coord lower ax <=? coord p ax then rangeSearchRec l lower upper (acc ++ h0) else acc ++ h0)
                    = (acc ++ h0) ++ h /\ split_by lower upper (elems l) h m).
    { destruct (coord lower ax <=? coord p ax) eqn:E.
      - apply IHl. assumption.
      - exists [], (elems l). rewrite app_nil_r. split; [reflexivity|]. apply split_all_miss.
        intros q Hq Hb. apply Hl in Hq. destruct (Hb ax) as [Hb1 _]. qc_lra. }
    destruct Hleft as (h1 & m1 & -> & S1).
    assert (Hright : exists h m, (if coord p ax <=? coord upper ax then rangeSearchRec r lower upper ((acc ++ h0) ++ h1) else (acc ++ h0) ++ h1)
                    = ((acc ++ h0) ++ h1) ++ h /\ split_by lower upper (elems r) h m).
    { destruct (coord p ax <=? coord upper ax) eqn:E.
      - apply IHr. assumption.
      - exists [], (elems r). rewrite app_nil_r. split; [reflexivity|]. apply split_all_miss.
        intros q Hq Hb. apply Hr in Hq. destruct (Hb ax) as [_ Hb1]. qc_lra. }
    destruct Hright as (h2 & m2 & -> & S2).
    exists (h0 ++ h1 ++ h2), (m0 ++ m1 ++ m2). split; [rewrite !app_assoc; reflexivity|].
    cbn [elems]. change (p :: elems l ++ elems r) with ([p] ++ elems l ++ elems r).
    apply split_app; [assumption|]. apply split_app; assumption.
Qed.

Lemma kd_range_exact nth_elt :
  nth_element_spec nth_elt ->
  forall ops lower upper, exists s miss,
    kd_run nth_elt kd_init ops = Some s /\
    Permutation (contents [] ops) (kd_rangeSearch s lower upper ++ miss) /\
    Forall (in_box lower upper) (kd_rangeSearch s lower upper) /\
    Forall (fun p => ~ in_box lower upper p) miss.
Proof.
  intros Hn ops lower upper.
  destruct (run_spec nth_elt Hn ops kd_init [] init_ok) as (s & Hs & K & P & _).
  destruct (range_spec (kroot s) lower upper K []) as (hit & miss & E & (PS & A & B)).
  exists s, miss. split; [assumption|]. unfold kd_rangeSearch. rewrite E. cbn [app].
  split; [rewrite P; assumption|]. rewrite !Forall_forall. auto.
Qed.

(** ** Nearest neighbour *)

Lemma distSq_nonneg_axis t q ax : (coord t ax - coord q ax) * (coord t ax - coord q ax) <= v3distSq t q.
Proof.
  unfold v3distSq, v3sq, v3sub.
  pose proof (Qc_sq_nonneg (vx t - vx q)). pose proof (Qc_sq_nonneg (vy t - vy q)).
  pose proof (Qc_sq_nonneg (vz t - vz q)).
  destruct ax; cbn; revert H H0 H1; generalize (vx t - vx q), (vy t - vy q), (vz t - vz q); intros; qc_lra.
Qed.

Lemma sq_mono_away a b c : (a <= b /\ b <= c) \/ (c <= b /\ b <= a) -> (a - b) * (a - b) <= (a - c) * (a - c).
Proof.
  intros H. assert (0 <= (c - b) * (b - a)) by (destruct H as [[? ?]|[? ?]]; qc_nra).
  pose proof (Qc_sq_nonneg (c - b)).
  replace ((a - c) * (a - c)) with ((a - b) * (a - b) + ((c - b) * (c - b) + ((c - b) * (b - a) + (c - b) * (b - a)))) by ring.
  revert H0 H1. generalize ((c - b) * (b - a)), ((c - b) * (c - b)), ((a - b) * (a - b)). intros. qc_lra.
Qed.

Definition nn_ok (target : vec3) (cands : list vec3) (s : vec3 * Qc) : Prop :=
  In (fst s) cands /\ snd s = v3distSq target (fst s).

Lemma nn_spec target t : kd_ok t -> forall s cands,
  nn_ok target cands s ->
  let s' := nearestNeighborRec t target s in
  nn_ok target (cands ++ elems t) s' /\ snd s' <= snd s /\
  forall q, In q (elems t) -> snd s' <= v3distSq target q.
Proof.
  induction t as [|p ax l IHl r IHr]; intros Hok s cands Hs.
  - cbn. rewrite app_nil_r. repeat split; try apply Hs; [apply Qcle_refl | intros ? []].
  - destruct Hok as (Hl & Hr & Kl & Kr). cbn [nearestNeighborRec elems].
    set (d := v3distSq target p).
    set (s1 := if d <? snd s then (p, d) else s).
    assert (H1 : nn_ok target (cands ++ [p]) s1 /\ snd s1 <= snd s /\ snd s1 <= d).
    { unfold s1. destruct (d <? snd s) eqn:E.
      - split; [|split; cbn; [qc_lra | apply Qcle_refl]]. split; [|reflexivity].
        apply in_or_app. right. left. reflexivity.
      - split; [|split; [apply Qcle_refl | qc_lra]]. destruct Hs as [Hi He]. split; [|assumption].
        apply in_or_app. left. assumption. }
    destruct H1 as (N1 & L1 & D1). clearbody s1.
    assert (Hgen : forall near far, kd_ok near -> kd_ok far ->
      (forall s cands, nn_ok target cands s ->
         let s' := nearestNeighborRec near target s in
         nn_ok target (cands ++ elems near) s' /\ snd s' <= snd s /\
         forall q, In q (elems near) -> snd s' <= v3distSq target q) ->
      (forall s cands, nn_ok target cands s ->
         let s' := nearestNeighborRec far target s in
         nn_ok target (cands ++ elems far) s' /\ snd s' <= snd s /\
         forall q, In q (elems far) -> snd s' <= v3distSq target q) ->
      (forall q, In q (elems far) -> (coord target ax - coord p ax) * (coord target ax - coord p ax)
          <= (coord target ax - coord q ax) * (coord target ax - coord q ax)) ->
      let s2 := nearestNeighborRec near target s1 in
      let s3 := if (coord target ax - coord p ax) * (coord target ax - coord p ax) <? snd s2
                then nearestNeighborRec far target s2 else s2 in
      (exists c, nn_ok target c s3 /\ forall x, In x c -> In x (cands ++ p :: elems near ++ elems far)) /\
      snd s3 <= snd s /\
      forall q, In q (p :: elems near ++ elems far) -> snd s3 <= v3distSq target q).
    { intros near far Kn Kf IHn IHf Hfar s2 s3.
      destruct (IHn s1 (cands ++ [p]) N1) as (N2 & L2 & D2). fold s2 in N2, L2, D2.
      assert (H3 : (exists c, nn_ok target c s3 /\ forall x, In x c -> In x (cands ++ p :: elems near ++ elems far)) /\
                   snd s3 <= snd s2 /\ forall q, In q (elems far) -> snd s3 <= v3distSq target q).
      { unfold s3. destruct (_ <? snd s2) eqn:E.
        - destruct (IHf s2 _ N2) as (N3 & L3 & D3). split; [|auto].
          eexists; split; [exact N3|]. intros x. rewrite !in_app_iff. cbn. rewrite in_app_iff. tauto.
        - split; [|split; [apply Qcle_refl|]].
          + exists ((cands ++ [p]) ++ elems near). split; [assumption|].
            intros x. rewrite !in_app_iff. cbn. rewrite in_app_iff. tauto.
          + intros q Hq. apply Hfar in Hq. pose proof (distSq_nonneg_axis target q ax).
            apply Qcltb_false in E. eapply Qcle_trans; [exact E|]. eapply Qcle_trans; eassumption. }
      destruct H3 as (X & L3 & D3). split; [assumption|]. split.
      - eapply Qcle_trans; [exact L3|]. eapply Qcle_trans; eassumption.
      - intros q [<-|Hq].
        + eapply Qcle_trans; [exact L3|]. eapply Qcle_trans; [exact L2|]. exact D1.
        + apply in_app_or in Hq. destruct Hq as [Hq|Hq]; [|auto].
          eapply Qcle_trans; [exact L3|]. auto. }
    destruct (coord target ax <? coord p ax) eqn:E.
    + destruct (Hgen l r Kl Kr (IHl Kl) (IHr Kr)) as ((c & Nc & Ic) & L & D).
      { intros q Hq. apply Hr in Hq. apply sq_mono_away. left. split; [qc_lra|assumption]. }
      split; [|split; assumption]. destruct Nc as [N1' N2']. split; [|assumption]. apply Ic. assumption.
    + destruct (Hgen r l Kr Kl (IHr Kr) (IHl Kl)) as ((c & Nc & Ic) & L & D).
      { intros q Hq. apply Hl in Hq. apply sq_mono_away. right. split; [assumption|qc_lra]. }
      split; [|split; [assumption|]].
      * destruct Nc as [N1' N2']. split; [|assumption]. apply Ic in N1'.
        clear - N1'. rewrite in_app_iff in *. cbn in *. rewrite in_app_iff in *. tauto.
      * intros q Hq. apply D. clear - Hq. cbn in *. rewrite in_app_iff in *. tauto.
Qed.

Lemma distSq_dist2 p q : v3distSq p q = dist2 p q.
Proof. unfold v3distSq, v3sq, v3sub, dist2. cbn. ring. Qed.

Lemma kd_nearest_optimal nth_elt :
  nth_element_spec nth_elt ->
  forall ops target, contents [] ops <> [] -> exists s best,
    kd_run nth_elt kd_init ops = Some s /\
    kd_nearestNeighbor s target = Ok best /\ In best (contents [] ops) /\
    forall q, In q (contents [] ops) -> dist2 target best <= dist2 target q.
Proof.
  intros Hn ops target Hne.
  destruct (run_spec nth_elt Hn ops kd_init [] init_ok) as (s & Hs & K & P & _).
  unfold kd_nearestNeighbor. destruct (kroot s) as [|p ax l r] eqn:Er.
  - exfalso. apply Hne. cbn in P. apply Permutation_nil. symmetry. assumption.
  - destruct (nn_spec target (KNode p ax l r) K (p, v3distSq target p) (elems (KNode p ax l r)))
      as ((N1 & N2) & _ & D).
    { split; [left; reflexivity | reflexivity]. }
    exists s. eexists. split; [assumption|]. rewrite Er. split; [reflexivity|]. split.
    + apply in_app_or in N1. eapply Permutation_in; [symmetry; exact P|]. destruct N1; assumption.
    + intros q Hq. rewrite <- !distSq_dist2, <- N2. apply D. eapply Permutation_in; eassumption.
Qed.

Lemma kd_size_tracks nth_elt :
  nth_element_spec nth_elt ->
  forall ops, exists s,
    kd_run nth_elt kd_init ops = Some s /\
    kd_size s = length (contents [] ops) /\
    (kd_empty s = true <-> contents [] ops = []) /\
    (forall target, (exists e, kd_nearestNeighbor s target = Throw e) <-> contents [] ops = []).
Proof.
  intros Hn ops.
  destruct (run_spec nth_elt Hn ops kd_init [] init_ok) as (s & Hs & K & P & HS).
  exists s. split; [assumption|]. split; [assumption|]. split.
  - unfold kd_empty. rewrite Nat.eqb_eq, HS. destruct (contents [] ops); cbn; split; congruence.
  - intros target. unfold kd_nearestNeighbor. destruct (kroot s) as [|p ax l r].
    + split; [|intros _; eexists; reflexivity]. intros _. apply Permutation_nil. symmetry. exact P.
    + split; [intros [e He]; discriminate|]. intros E. rewrite E in P.
      apply Permutation_nil in P. discriminate.
Qed.

(** ** A concrete nth_element: insertion sort *)

Fixpoint ins_axis (ax : axis) (p : vec3) (l : list vec3) : list vec3 :=
  match l with
  | [] => [p]
  | q :: t => if coord p ax <=? coord q ax then p :: l else q :: ins_axis ax p t
  end.

Definition sort_axis (ax : axis) (l : list vec3) : list vec3 := fold_right (ins_axis ax) [] l.

Definition sorting_nth_element : nth_element := fun ax mid pts =>
  let s := sort_axis ax pts in
  match skipn mid s with
  | m :: after => (firstn mid s, m, after)
  | [] => (s, V3 0 0 0, [])
  end.

Lemma ins_axis_perm ax p l : Permutation (p :: l) (ins_axis ax p l).
Proof.
  induction l as [|q t IH]; cbn; [reflexivity|]. destruct (_ <=? _); [reflexivity|].
  rewrite perm_swap. apply perm_skip. assumption.
Qed.

Lemma sort_axis_perm ax l : Permutation l (sort_axis ax l).
Proof.
  induction l as [|p t IH]; cbn; [reflexivity|]. rewrite <- ins_axis_perm. apply perm_skip. assumption.
Qed.

Inductive sorted_axis (ax : axis) : list vec3 -> Prop :=
| sa_nil : sorted_axis ax []
| sa_cons p l : (forall q, In q l -> coord p ax <= coord q ax) -> sorted_axis ax l -> sorted_axis ax (p :: l).

Lemma ins_axis_sorted ax p l : sorted_axis ax l -> sorted_axis ax (ins_axis ax p l).
Proof.
  induction 1 as [|q l Hq Hs IH]; cbn.
  - constructor; [intros ? [] | constructor].
  - destruct (_ <=? _) eqn:E.
    + constructor; [|constructor; assumption]. intros x [<-|Hx]; [qc_lra|]. apply Hq in Hx. qc_lra.
    + constructor; [|assumption]. intros x Hx.
      apply (Permutation_in (l' := p :: l)) in Hx; [|symmetry; apply ins_axis_perm].
      destruct Hx as [<-|Hx]; [qc_lra | apply Hq; assumption].
Qed.

Lemma sort_axis_sorted ax l : sorted_axis ax (sort_axis ax l).
Proof. induction l; cbn; [constructor | apply ins_axis_sorted; assumption]. Qed.

Lemma sorted_axis_app ax l1 m l2 : sorted_axis ax (l1 ++ m :: l2) ->
  (forall p, In p l1 -> coord p ax <= coord m ax) /\ (forall p, In p l2 -> coord m ax <= coord p ax).
Proof.
  induction l1 as [|p l1 IH]; cbn; intros H; inversion H; subst.
  - split; [intros ? []|assumption].
  - apply IH in H3. destruct H3 as [A B]. split; [|assumption].
    intros x [<-|Hx]; [|auto]. apply H2. apply in_or_app. right. left. reflexivity.
Qed.

Lemma sorting_nth_element_ok : nth_element_spec sorting_nth_element.
Proof.
  intros ax mid pts before m after Hm E. unfold sorting_nth_element in E.
  pose proof (sort_axis_perm ax pts) as P. pose proof (sort_axis_sorted ax pts) as S.
  assert (L := Permutation_length P).
  destruct (skipn mid (sort_axis ax pts)) as [|m' after'] eqn:Es.
  - exfalso. assert (L2 := skipn_length mid (sort_axis ax pts)). rewrite Es in L2. cbn in L2. lia.
  - injection E as <- <- <-. assert (Hs := firstn_skipn mid (sort_axis ax pts)). rewrite Es in Hs.
    rewrite <- Hs in S. apply sorted_axis_app in S. repeat split; try apply S.
    + rewrite Hs. assumption.
    + rewrite firstn_length. lia.
Qed.
