(** Proofs about knot refinement: the lists of knots, and the whole. *)
From Coq Require Import List ZArith QArith Qcanon Bool Lia Lqa Field Permutation Sorted.
From Verif Require Import Base BaseFacts LoopFacts ModelVec ModelNurbs ModelSurface ModelRefine SpecNurbs SpecRefine
  ProofBspline ProofNurbs ProofInsertion ProofInsertCurve ProofInsertKnot ProofSmooth ProofDerivative ProofNurbsMisc ProofRefine.
Import ListNotations.
Open Scope Qc_scope.

(** ** increasing lists *)
Notation incr := (StronglySorted Qclt).

Lemma set_insert_in x l y : In y (set_insert x l) <-> y = x \/ In y l.
Proof.
  induction l as [|z l IH]; cbn [set_insert]; [cbn; intuition|]. destruct (Qcltb_spec x z); [cbn; intuition|].
  destruct (Qceqb_spec x z) as [->|E]; [cbn; intuition|]. cbn [In]. rewrite IH. intuition.
Qed.
Lemma set_insert_incr x l : incr l -> incr (set_insert x l).
Proof.
  induction 1 as [|z l H IH F]; cbn [set_insert]; [repeat constructor|]. rewrite Forall_forall in F.
  destruct (Qcltb_spec x z) as [A|A].
  - constructor; [constructor; [assumption|apply Forall_forall; assumption]|]. apply Forall_forall. intros y [<-|Hy]; [assumption|]. specialize (F y Hy). qc_lra.
  - destruct (Qceqb_spec x z) as [E|E]; [constructor; [assumption|apply Forall_forall; assumption]|].
    constructor; [assumption|]. apply Forall_forall. intros y Hy. apply set_insert_in in Hy as [->|Hy]; [|auto].
    destruct (Qc_neq_or x z E); [contradiction|assumption].
Qed.
Lemma fold_insert l : forall s, incr s -> incr (fold_left (fun s x => set_insert x s) l s) /\
  forall y, In y (fold_left (fun s x => set_insert x s) l s) <-> In y l \/ In y s.
Proof.
  induction l as [|x l IH]; intros s H; cbn [fold_left]; [split; [assumption|cbn; intuition]|].
  destruct (IH _ (set_insert_incr x s H)) as [A B]. split; [assumption|]. intros y. rewrite B, set_insert_in. cbn [In]. intuition.
Qed.

Definition middles (T : Qc -> Prop) (x : Qc) : Prop :=
  T x \/ exists y z, T y /\ T z /\ y < z /\ (forall w, T w -> w <= y \/ z <= w) /\ x = (y + z) / qc 2 1.
Lemma two_nz : qc 2 1 <> 0. Proof. discriminate. Qed.
Lemma mid_between x y : x < y -> x < x + (y - x) / qc 2 1 /\ x + (y - x) / qc 2 1 < y.
Proof.
  intros H. assert (x + (y - x) / qc 2 1 = (x + y) * qc 1 2) as ->.
  { unfold Qcdiv. replace (/ qc 2 1) with (qc 1 2) by (apply Qc_is_canon; reflexivity). replace x with (x * (qc 1 2 + qc 1 2)) at 1; [ring|].
    replace (qc 1 2 + qc 1 2) with 1 by (apply Qc_is_canon; reflexivity). ring. }
  split; qcb; qc_lra.
Qed.
Lemma mid_eq x y : x + (y - x) / qc 2 1 = (x + y) / qc 2 1.
Proof.
  unfold Qcdiv. replace (/ qc 2 1) with (qc 1 2) by (apply Qc_is_canon; reflexivity). replace x with (x * (qc 1 2 + qc 1 2)) at 1; [ring|].
  replace (qc 1 2 + qc 1 2) with 1 by (apply Qc_is_canon; reflexivity). ring.
Qed.

Lemma halves_in l : incr l -> forall x, In x (halves l) <-> middles (fun z => In z l) x.
Proof.
  induction 1 as [|a l H IH F]; intros x; [cbn; unfold middles; firstorder|].
  destruct l as [|b l].
  - cbn. unfold middles. cbn. split; [intuition|]. intros [E|(y & z & [<-|[]] & [<-|[]] & L & _)]; [assumption|exfalso; qc_lra].
  - rewrite Forall_forall in F. pose proof (F b (or_introl eq_refl)) as Lab.
    assert (forall w, In w (b :: l) -> b <= w) as Hb.
    { inversion H as [|? ? H1 H2]; subst. rewrite Forall_forall in H2. intros w [<-|Hw]; [apply Qcle_refl|apply Qclt_le_weak; auto]. }
    change (halves (a :: b :: l)) with (a :: (a + (b - a) / qc 2 1) :: halves (b :: l)).
    change (In x (a :: (a + (b - a) / qc 2 1) :: halves (b :: l))) with (a = x \/ (a + (b - a) / qc 2 1 = x) \/ In x (halves (b :: l))).
    rewrite IH. unfold middles. split.
    + intros [<-|[<-|[E|(y & z & Hy & Hz & L & N & E)]]].
      * left. left. reflexivity.
      * right. exists a, b. split; [left; reflexivity|]. split; [right; left; reflexivity|]. split; [assumption|]. split; [|apply mid_eq].
        intros w [<-|Hw]; [left; apply Qcle_refl|right; apply Hb; assumption].
      * left. right. assumption.
      * right. exists y, z. split; [right; assumption|]. split; [right; assumption|]. split; [assumption|]. split; [|assumption].
        intros w [<-|Hw]; [left; apply Qclt_le_weak, F; assumption|auto].
    + intros [[<-|E]|(y & z & Hy & Hz & L & N & E)]; [left; reflexivity|right; right; left; assumption|].
      destruct Hy as [<-|Hy].
      * right. left. destruct Hz as [<-|Hz]; [exfalso; qc_lra|]. assert (z = b) as ->; [|rewrite E; apply mid_eq].
        apply Qcle_antisym; [|apply Hb; assumption]. destruct (N b (or_intror (or_introl eq_refl))) as [G|G]; [exfalso; qc_lra|assumption].
      * right. right. right. exists y, z. split; [assumption|]. destruct Hz as [<-|Hz]; [exfalso; specialize (F y Hy); qc_lra|].
        split; [assumption|]. split; [assumption|]. split; [|assumption]. intros w Hw. apply N. right. assumption.
Qed.
Lemma halves_incr l : incr l -> incr (halves l).
Proof.
  induction 1 as [|a l H IH F]; [constructor|]. destruct l as [|b l]; [repeat constructor|].
  change (halves (a :: b :: l)) with (a :: (a + (b - a) / qc 2 1) :: halves (b :: l)).
  rewrite Forall_forall in F. pose proof (F b (or_introl eq_refl)) as Lab. destruct (mid_between a b Lab) as [M1 M2].
  assert (forall x, In x (halves (b :: l)) -> b <= x) as Hb.
  { intros x Hx. apply (halves_in _ H) in Hx. assert (forall w, In w (b :: l) -> b <= w) as Hb.
    { inversion H as [|? ? H1 H2]; subst. rewrite Forall_forall in H2. intros w [<-|Hw]; [apply Qcle_refl|apply Qclt_le_weak; auto]. }
    destruct Hx as [Hx|(y & z & Hy & Hz & L & _ & ->)]; [auto|]. rewrite <- mid_eq. destruct (mid_between y z L). specialize (Hb y Hy). qc_lra. }
  constructor; [constructor; [assumption|]|]; apply Forall_forall.
  - intros x Hx. specialize (Hb x Hx). qc_lra.
  - intros x [<-|Hx]; [assumption|]. specialize (Hb x Hx). qc_lra.
Qed.
Lemma halves_nonempty l : l <> [] -> halves l <> [].
Proof. destruct l as [|a [|b l]]; cbn; congruence. Qed.

Lemma halved_ext T T' d : (forall x, T x <-> T' x) -> forall x, halved T d x <-> halved T' d x.
Proof.
  intros E. induction d as [|d IH]; intros x; cbn [halved]; [apply E|]. rewrite IH. apply or_iff_compat_l.
  split; intros (y & z & A & B & C & D & F); exists y, z; (split; [apply IH, A|]); (split; [apply IH, B|]); (split; [exact C|]); (split; [|exact F]); intros w Hw; apply D, IH, Hw.
Qed.
Lemma halve_rounds d : forall l, incr l -> (l <> [] \/ d = 0%nat) -> exists l', for_up d 0 (fun _ l => halve l) l = Ok l' /\ incr l' /\
  forall x, In x l' <-> halved (fun z => In z l) d x.
Proof.
  intros l H N. destruct (for_up_inv (fun k l' => incr l' /\ (l <> [] -> l' <> []) /\ forall x, In x l' <-> halved (fun z => In z l) k x) (fun _ l => halve l) d 0 l) as (l' & E & A & _ & B).
  - split; [assumption|]. split; [auto|]. reflexivity.
  - intros i s _ Hi (A & B & C). destruct N as [N|N]; [|lia]. unfold halve. destruct s as [|s0 s]; [exfalso; apply B; auto|].
    eexists. split; [reflexivity|]. split; [apply halves_incr; assumption|]. split; [intros _; apply halves_nonempty; discriminate|].
    intros x. rewrite halves_in by assumption. cbn [halved]. unfold middles. rewrite <- C. apply or_iff_compat_l.
    split; intros (y & z & Y & Z & L & M & F); exists y, z; (split; [apply C, Y|]); (split; [apply C, Z|]); (split; [exact L|]); (split; [|exact F]); intros w Hw; apply M, C, Hw.
  - exists l'. auto.
Qed.

Lemma values_ok n p U kl al density : valid_knots n p U ->
  exists N, refine_values p U kl al density = Ok N /\ incr N /\ forall x, In x N <-> asked n p U kl al density x.
Proof.
  intros (Hpn & HL & HS & HN). unfold refine_values.
  assert (exists base, (match kl with [] => sub_vec U (Z.of_nat p) (Z.of_nat (length U) - Z.of_nat p) | _ => Ok kl end) = Ok base /\ base <> [] /\
    forall x, In x base <-> match kl with [] => In x U /\ knot U p <= x /\ x <= knot U (n + 1) | _ => In x kl end) as (base & -> & NE & HB).
  { destruct kl as [|a kl]; [|eexists; split; [reflexivity|]; split; [discriminate|reflexivity]].
    unfold sub_vec. destruct (_ && _)%bool eqn:B; [|exfalso; apply not_true_iff_false in B; apply B; rewrite !andb_true_iff, !Z.leb_le; lia].
    eexists. split; [reflexivity|]. replace (Z.to_nat (Z.of_nat (length U) - Z.of_nat p - Z.of_nat p)) with (n + 2 - p)%nat by lia. rewrite Nat2Z.id.
    assert (length (firstn (n + 2 - p) (skipn p U)) = (n + 2 - p)%nat) as LB by (rewrite firstn_length, skipn_length; lia).
    split; [intros F; rewrite F in LB; cbn in LB; lia|]. pose proof (sorted_mono U HS) as M.
    assert (forall x, In x (firstn (n + 2 - p) (skipn p U)) <-> exists j, (p <= j <= n + 1)%nat /\ knot U j = x) as HI.
    { intros x. split.
      - intros Hx. apply (In_nth _ _ 0) in Hx as (j & Hj & <-). rewrite nth_firstn_lt by lia. rewrite nth_skipn_add. exists (p + j)%nat. split; [lia|]. apply knot_nth. lia.
      - intros (j & Hj & <-). rewrite knot_nth by lia. replace (nth j U 0) with (nth (j - p) (firstn (n + 2 - p) (skipn p U)) 0); [apply nth_In; lia|].
        rewrite nth_firstn_lt by lia. rewrite nth_skipn_add. f_equal. lia. }
    intros x. rewrite HI. split.
    - intros (j & Hj & <-). split; [rewrite knot_nth by lia; apply nth_In; lia|]. split; apply M; lia.
    - intros (A & B1 & B2). apply (In_nth _ _ 0) in A as (j & Hj & <-). rewrite <- knot_nth in * by lia.
      destruct (Nat.lt_ge_cases j p) as [C|C].
      + exists p. split; [lia|]. apply Qcle_antisym; [assumption|apply M; lia].
      + destruct (Nat.le_gt_cases j (n + 1)) as [D|D]; [exists j; split; [lia|reflexivity]|]. exists (n + 1)%nat. split; [lia|]. apply Qcle_antisym; [apply M; lia|assumption]. }
  cbn [bind]. destruct (fold_insert (base ++ al) [] ltac:(constructor)) as [SI HI].
  destruct (halve_rounds (Z.to_nat (density - 1)) _ SI) as (N & E & IN & HN').
  { left. destruct base as [|b0 base]; [contradiction|]. intros F. specialize (HI b0). rewrite F in HI. destruct HI as [_ HI]. apply HI. left. left. reflexivity. }
  exists N. split; [exact E|]. split; [exact IN|]. intros x. rewrite HN'. unfold asked. apply halved_ext. intros y. rewrite HI. unfold wanted. rewrite in_app_iff, HB. cbn. intuition.
Qed.

(** ** the knots to insert *)
Lemma inserts_in p U N x : In x (refine_inserts p U N) <-> In x N /\ (find_multiplicity x U < p)%nat.
Proof.
  unfold refine_inserts. rewrite in_flat_map. split.
  - intros (y & Hy & Hx). pose proof (repeat_spec _ _ _ Hx) as E. subst y. split; [assumption|]. destruct (p - find_multiplicity x U)%nat eqn:D; [contradiction|lia].
  - intros [A B]. exists x. split; [assumption|]. destruct (p - find_multiplicity x U)%nat eqn:D; [lia|]. left. reflexivity.
Qed.
Lemma multiplicity_repeat m y x : multiplicity (repeat y m) x = (if (x =? y)%Qc then m else 0)%nat.
Proof. induction m as [|m IH]; [destruct (x =? y); reflexivity|]. cbn [repeat]. rewrite multiplicity_cons, IH. destruct (x =? y); lia. Qed.
Lemma multiplicity_0 l x : ~ In x l -> multiplicity l x = 0%nat.
Proof.
  induction l as [|y l IH]; intros H; [reflexivity|]. rewrite multiplicity_cons, IH by (intros F; apply H; right; assumption).
  destruct (Qceqb_spec x y) as [->|E]; [exfalso; apply H; left; reflexivity|reflexivity].
Qed.
Lemma inserts_mult p U N x : incr N -> In x N -> multiplicity (refine_inserts p U N) x = (p - find_multiplicity x U)%nat.
Proof.
  induction 1 as [|y N H IH F]; intros Hx; [contradiction|]. unfold refine_inserts. cbn [flat_map]. fold (refine_inserts p U N). rewrite multiplicity_app, multiplicity_repeat.
  rewrite Forall_forall in F. destruct (Qceqb_spec x y) as [->|E].
  - rewrite multiplicity_0; [lia|]. intros G. apply inserts_in in G as [G _]. specialize (F y G). qc_lra.
  - destruct Hx as [Hx|Hx]; [congruence|]. rewrite IH by assumption. reflexivity.
Qed.
Lemma inserts_mult_out p U N x : ~ In x N -> multiplicity (refine_inserts p U N) x = 0%nat.
Proof. intros H. apply multiplicity_0. intros G. apply inserts_in in G as [G _]. contradiction. Qed.
Lemma inserts_sorted p U N : incr N -> StronglySorted Qcle (refine_inserts p U N).
Proof.
  induction 1 as [|y N H IH F]; [constructor|]. unfold refine_inserts. cbn [flat_map]. fold (refine_inserts p U N).
  rewrite Forall_forall in F. generalize (p - find_multiplicity y U)%nat. intros m.
  assert (forall x, In x (refine_inserts p U N) -> y <= x) as Hy by (intros x Hx; apply inserts_in in Hx as [Hx _]; apply Qclt_le_weak; auto).
  induction m as [|m IHm]; [exact IH|]. cbn [repeat app]. constructor; [assumption|]. apply Forall_forall. intros x Hx. apply in_app_or in Hx as [Hx|Hx]; [|auto].
  apply repeat_spec in Hx. subst x. apply Qcle_refl.
Qed.
Lemma sorted_nth l : StronglySorted Qcle l -> forall i j, (i <= j < length l)%nat -> nth i l 0 <= nth j l 0.
Proof.
  induction 1 as [|x l H IH F]; intros i j Hij; cbn [length] in Hij; [lia|]. rewrite Forall_forall in F. destruct j as [|j].
  - destruct i; [apply Qcle_refl|lia].
  - destruct i as [|i]; cbn [nth]; [apply F, nth_In; lia|apply IH; lia].
Qed.

(** ** the copied parts *)
Lemma copy_loop {A} (S : list A) D R d count start (body : nat -> list A -> res (list A)) l :
  (forall j l, body j l = (q <- get S j ;; set_nth l (j + R) q)) -> (start + count <= length S)%nat -> (start + R + count <= length l)%nat -> D = d ->
  exists l', for_up count start body l = Ok l' /\ length l' = length l /\
    forall y, nth y l' d = if (Nat.leb (start + R) y && Nat.ltb y (start + R + count))%bool then nth (y - R) S d else nth y l d.
Proof.
  intros HB H1 H2 _. destruct (for_up_inv (fun k l' => length l' = length l /\
     forall y, nth y l' d = if (Nat.leb (start + R) y && Nat.ltb y (k + R))%bool then nth (y - R) S d else nth y l d) body count start l) as (l' & E & L & N).
  - split; [reflexivity|]. intros y. destruct (Nat.leb_spec (start + R) y), (Nat.ltb_spec y (start + R)); try reflexivity; lia.
  - intros i s Hi1 Hi2 (L & N). rewrite HB. rewrite (get_ok S i d) by lia. cbn [bind].
    destruct (set_nth_ok s (i + R) (nth i S d)) as (s' & E & L' & N'); [lia|]. exists s'. split; [exact E|]. split; [lia|].
    intros y. rewrite N', N. destruct (Nat.eqb_spec y (i + R)) as [->|F].
    + destruct (Nat.leb_spec (start + R) (i + R)), (Nat.ltb_spec (i + R) (Datatypes.S i + R)); try lia. cbn [andb]. f_equal. lia.
    + destruct (Nat.leb_spec (start + R) y), (Nat.ltb_spec y (i + R)), (Nat.ltb_spec y (Datatypes.S i + R)); try lia; reflexivity.
  - exists l'. split; [exact E|]. split; [exact L|]. intros y. rewrite N. replace (start + count + R)%nat with (start + R + count)%nat by lia. reflexivity.
Qed.

Lemma init_ok p n a b' R U P : (1 <= p)%nat -> length U = (n + p + 2)%nat -> length P = S n -> (p <= a)%nat -> (a <= b' <= n)%nat ->
  exists Q kv, refine_init p n a (b' + 1) R U P = Ok (Q, kv) /\ Inv p a n R U P R (b' + p) Q kv U P.
Proof.
  intros Hp LU LP Ha Hb. unfold refine_init.
  destruct (copy_loop P d4 0 d4 (a - p + 1) 0 (fun j Q => q <- get P j ;; set_nth Q j q) (repeat v4zero (n + R + 1))) as (Q1 & E1 & L1 & N1);
    [intros; rewrite Nat.add_0_r; reflexivity|lia|rewrite repeat_length; lia|reflexivity|]. rewrite E1. cbn [bind].
  rewrite repeat_length in L1.
  destruct (copy_loop P d4 R d4 (n + 2 - (b' + 1)) (b' + 1 - 1) (fun j Q => q <- get P j ;; set_nth Q (j + R) q) Q1) as (Q2 & E2 & L2 & N2);
    [reflexivity|lia|lia|reflexivity|]. rewrite E2. cbn [bind].
  destruct (copy_loop U 0 0 0 (a + 1) 0 (fun j kv => u <- get U j ;; set_nth kv j u) (repeat 0 (n + p + 1 + R + 1))) as (K1 & E3 & L3 & N3);
    [intros; rewrite Nat.add_0_r; reflexivity|lia|rewrite repeat_length; lia|reflexivity|]. rewrite E3. cbn [bind].
  rewrite repeat_length in L3.
  destruct (copy_loop U 0 R 0 (n + p + 1 + 1 - (b' + 1 + p)) (b' + 1 + p) (fun j kv => u <- get U j ;; set_nth kv (j + R) u) K1) as (K2 & E4 & L4 & N4);
    [reflexivity|lia|lia|reflexivity|]. rewrite E4. cbn [bind].
  exists Q2, K2. split; [reflexivity|]. unfold Inv. repeat split; try lia.
  - intros x Hx. rewrite N4. destruct (Nat.leb_spec (b' + 1 + p + R) (x + R)), (Nat.ltb_spec (x + R) (b' + 1 + p + R + (n + p + 1 + 1 - (b' + 1 + p)))); try lia. cbn [andb]. f_equal. lia.
  - intros x Hx. rewrite N2. destruct (Nat.leb_spec (b' + 1 - 1 + R) (x + R)), (Nat.ltb_spec (x + R) (b' + 1 - 1 + R + (n + 2 - (b' + 1)))); try lia. cbn [andb]. f_equal. lia.
  - intros x Hx. rewrite N4. destruct (Nat.leb_spec (b' + 1 + p + R) x); [lia|]. cbn [andb]. rewrite N3. destruct (Nat.leb_spec (0 + 0) x), (Nat.ltb_spec x (0 + 0 + (a + 1))); try lia. cbn [andb]. f_equal. lia.
  - intros x Hx. rewrite N2. destruct (Nat.leb_spec (b' + 1 - 1 + R) x); [lia|]. cbn [andb]. rewrite N1. destruct (Nat.leb_spec (0 + 0) x), (Nat.ltb_spec x (0 + 0 + (a - p + 1))); try lia. cbn [andb]. f_equal. lia.
Qed.

(** ** the whole *)
Lemma halved_domain (T : Qc -> Prop) lo hi d : (forall x, T x -> lo <= x /\ x <= hi) -> forall x, halved T d x -> lo <= x /\ x <= hi.
Proof.
  intros H. induction d as [|d IH]; intros x; cbn [halved]; [apply H|]. intros [A|(y & z & A & B & L & _ & ->)]; [auto|].
  rewrite <- mid_eq. destruct (mid_between y z L). destruct (IH y A), (IH z B). split; qc_lra.
Qed.
Lemma coarse_separated T U x : coarse T -> (forall y, In y U -> T y) -> T x -> separated U x.
Proof.
  intros C HU Hx y Hy. assert (tol12 < tol_1em8) by reflexivity. destruct (C y x (HU y Hy) Hx) as [E|[E|E]]; [left; assumption|right; left; qc_lra|right; right; qc_lra].
Qed.

Lemma refinement_ok n p U P kl al density : (1 <= p)%nat -> valid_knots n p U -> clamped n p U -> length P = S n ->
  (forall x, In x (kl ++ al) -> in_domain n p U x) ->
  coarse (fun x => In x U \/ asked n p U kl al density x) ->
  (exists Q V m, knot_refinement p U P kl al density = Ok (Q, V) /\ (n < m)%nat /\ length Q = S m /\ valid_knots m p V /\
     (exists x, asked n p U kl al density x /\ (multiplicity U x < p)%nat) /\
     (forall x, asked n p U kl al density x -> multiplicity V x = Nat.max p (multiplicity U x)) /\
     (forall x, ~ asked n p U kl al density x -> multiplicity V x = multiplicity U x) /\
     knot V p = knot U p /\ knot V (m + 1) = knot U (n + 1) /\ (unit_weights P -> unit_weights Q) /\
     (forall c u, coordinate c -> in_domain n p U u -> combination c V m p Q u = combination c U n p P u)) \/
  (knot_refinement p U P kl al density = Throw ERuntime /\ forall x, asked n p U kl al density x -> (p <= multiplicity U x)%nat).
Proof.
  intros Hp VK CL LP HD CO. pose proof VK as (Hpn & HL & HS & HN). pose proof (sorted_mono U HS) as M.
  destruct (values_ok n p U kl al density VK) as (N & EN & IN & HNN).
  assert (forall x, asked n p U kl al density x -> in_domain n p U x) as AD.
  { unfold asked, in_domain. apply halved_domain. intros x [A|A]; [|apply HD, in_or_app; right; assumption].
    destruct kl as [|k0 kl]; [apply A|]. apply HD, in_or_app. left. assumption. }
  assert (forall x, asked n p U kl al density x -> find_multiplicity x U = multiplicity U x) as FM.
  { intros x Hx. apply find_multiplicity_spec. eapply coarse_separated; [exact CO| |right; exact Hx]. intros y Hy. left. assumption. }
  set (X := refine_inserts p U N).
  assert (forall x, In x X -> asked n p U kl al density x /\ (multiplicity U x < p)%nat /\ knot U p < x /\ x < knot U (n + 1)) as HX.
  { intros x Hx. apply inserts_in in Hx as [A B]. apply HNN in A. rewrite FM in B by assumption. split; [assumption|]. split; [assumption|].
    destruct (AD x A) as [D1 D2]. destruct CL as [C1 C2]. split.
    - destruct (Qceqb_spec (knot U p) x) as [E|E]; [|destruct (Qc_neq_or _ _ E); [assumption|exfalso; qc_lra]]. exfalso.
      assert (p + 1 <= multiplicity U x)%nat; [|lia]. apply (mult_range U x 0). intros j Hj. split; [lia|]. rewrite <- knot_nth by lia. rewrite <- E, (C1 j), (C1 p) by lia. reflexivity.
    - destruct (Qceqb_spec (knot U (n + 1)) x) as [E|E]; [|destruct (Qc_neq_or _ _ E); [exfalso; qc_lra|assumption]]. exfalso.
      assert (p + 1 <= multiplicity U x)%nat; [|lia]. apply (mult_range U x (n + 1)). intros j Hj. split; [lia|]. rewrite <- knot_nth by lia. rewrite C2 by lia. assumption. }
  unfold knot_refinement. destruct P as [|P0 P']; [cbn in LP; lia|]. remember (P0 :: P') as P eqn:EP. rewrite EN. cbn [bind].
  fold X. replace (length P - 1)%nat with n by lia. clear EP.
  assert (forall x, asked n p U kl al density x -> multiplicity X x = (p - multiplicity U x)%nat) as MX.
  { intros x Hx. unfold X. rewrite inserts_mult by (try assumption; apply HNN; assumption). rewrite FM by assumption. reflexivity. }
  assert (forall x, ~ asked n p U kl al density x -> multiplicity X x = 0%nat) as MX0.
  { intros x Hx. apply inserts_mult_out. intros G. apply Hx, HNN, G. }
  assert (StronglySorted Qcle X) as SX by (apply inserts_sorted; assumption).
  destruct X as [|x0 X'] eqn:EX.
  { right. split; [reflexivity|]. intros x Hx. specialize (MX x Hx). cbn in MX. lia. }
  left. rewrite <- EX in *. set (xr := last X 0). assert (X <> []) as NX by (rewrite EX; discriminate).
  assert (In x0 X) as I0 by (rewrite EX; left; reflexivity).
  assert (In xr X) as Ir. { unfold xr. destruct (exists_last NX) as (l & z & ->). rewrite last_last. apply in_or_app. right. left. reflexivity. }
  assert (1 <= length X)%nat as L1 by (rewrite EX; cbn; lia).
  assert (nth 0 X 0 = x0) as N0 by (rewrite EX; reflexivity).
  assert (nth (length X - 1) X 0 = xr) as Nr. { unfold xr. destruct (exists_last NX) as (l & z & ->). rewrite last_last, app_length. cbn [length]. rewrite app_nth2 by lia. replace (length l + 1 - 1 - length l)%nat with 0%nat by lia. reflexivity. }
  destruct (HX x0 I0) as (_ & _ & X1 & X2). destruct (HX xr Ir) as (_ & _ & Y1 & Y2).
  destruct (domain_span n p U x0 VK ltac:(qc_lra) X2) as (a & Ha & A1 & A2).
  destruct (domain_span n p U xr VK ltac:(qc_lra) Y2) as (b' & Hb & B1 & B2).
  assert (x0 <= xr) as L0r by (rewrite <- N0, <- Nr; apply sorted_nth; [assumption|lia]).
  assert (a <= b')%nat as Hab.
  { destruct (Nat.le_gt_cases a b') as [C|C]; [assumption|]. assert (knot U (S b') <= knot U a) by (apply M; lia). exfalso. qc_lra. }
  rewrite (find_span_at n p U a x0) by (assumption || lia). cbn [bind].
  rewrite (find_span_at n p U b' xr) by (assumption || lia). cbn [bind].
  destruct (init_ok p n a b' (length X) U P) as (Q & kv & EI & INV); try assumption; try lia. rewrite EI. cbn [bind].
  destruct (main_loop p a n (length X) U P Hp VK LP ltac:(lia) (rev X) [] (b' + p) Q kv U P) as (Q' & kv' & EL & LQ & G).
  - rewrite rev_length. cbn. lia.
  - rewrite rev_length. assumption.
  - rewrite rev_length. unfold Good. rewrite Nat.sub_diag, Nat.add_0_r. rewrite <- Nat.add_1_r. repeat split; try reflexivity; try assumption.
    intros HU y Hy. apply HU, nth_In. lia.
  - intros k k' Hk. rewrite rev_length in Hk. rewrite !rev_nth by lia. apply sorted_nth; [assumption|lia].
  - intros x Hx. apply in_rev in Hx. destruct (HX x Hx) as (AX & MU & Z1 & Z2). split; [|split; [assumption|]].
    + apply (In_nth _ _ 0) in Hx as (j & Hj & <-). assert (nth 0 X 0 <= nth j X 0) by (apply sorted_nth; [assumption|lia]). rewrite N0 in *. qc_lra.
    + cbn [app]. rewrite multiplicity_app, (multiplicity_perm _ _ x (Permutation_sym (Permutation_rev X))), MX by assumption. lia.
  - intros x y Hx Hy. cbn [app] in Hx, Hy. apply CO.
    + apply in_app_or in Hx as [Hx|Hx]; [right; apply in_rev in Hx; apply HX; assumption|left; assumption].
    + apply in_app_or in Hy as [Hy|Hy]; [right; apply in_rev in Hy; apply HX; assumption|left; assumption].
  - destruct (rev X) as [|z t] eqn:ER; [exfalso; apply NX; apply (f_equal (@rev Qc)) in ER; rewrite rev_involutive in ER; exact ER|].
    rewrite <- ER. assert (z = xr) as ->. { rewrite <- Nr. assert (nth 0 (rev X) 0 = z) as <- by (rewrite ER; reflexivity). rewrite rev_nth by lia. reflexivity. }
    assert (last (rev X) 0 = x0) as ->. { rewrite EX. cbn [rev]. apply last_last. }
    rewrite <- !knot_nth by lia. split; [assumption|]. right. split; [|lia]. assert (knot U (S b') <= knot U (b' + p)) by (apply M; lia). qc_lra.
  - rewrite rev_length in EL. replace (b' + 1 + p - 1)%nat with (b' + p)%nat by lia. replace (b' + 1 + p + length X - 1)%nat with (b' + p + length X)%nat by lia.
    rewrite EL. rewrite rev_involutive, app_nil_r in G. destruct G as (G1 & G2 & G3 & G4 & GW & G5). rewrite Nat.sub_0_r in *.
    exists Q', kv', (n + length X)%nat. split; [reflexivity|]. split; [lia|]. split; [lia|]. split; [assumption|].
    split; [exists x0; destruct (HX x0 I0) as (? & ? & _); auto|].
    split; [|split; [|split; [assumption|split; [rewrite Nat.add_1_r; assumption|split; [|assumption]]]]].
    + intros x Hx. rewrite (multiplicity_perm _ _ x G1), multiplicity_app, MX by assumption. lia.
    + intros x Hx. rewrite (multiplicity_perm _ _ x G1), multiplicity_app, MX0 by assumption. reflexivity.
    + intros HU q Hq. apply (In_nth _ _ d4) in Hq as (y & Hy & <-). apply GW; [assumption|lia].
Qed.
