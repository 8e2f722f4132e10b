(** ders_basis_funs computes the derivatives of the basis functions. *)
From Coq Require Import List ZArith QArith Qcanon Lia Bool.
From Verif Require Import Base BaseFacts ModelVec ModelNurbs ModelDerivative SpecNurbs LoopFacts ProofBspline ProofNurbs ProofSmooth.
Import ListNotations.
Open Scope Qc_scope.

(** the same computation with the knots already looked up *)
Definition ndu_outer_f (fa fb : nat -> Qc) (u : Qc) (j : nat) (st : list vec4 * list Qc * list Qc)
  : res (list vec4 * list Qc * list Qc) :=
  let '(ndu, lft, rgt) := st in
  lft <- set_nth lft j (u - fa j) ;;
  rgt <- set_nth rgt j (fb j - u) ;;
  '(ndu, saved) <- for_up j 0 (ndu_inner j lft rgt) (ndu, 0) ;;
  ndu <- row_put ndu (Z.of_nat j) (Z.of_nat j) saved ;;
  Ok (ndu, lft, rgt).
Definition ders_f (fa fb : nat -> Qc) (u : Qc) (p n : nat) : res (list vec4) :=
  let ders := repeat v4zero (n + 1) in
  ndu <- row_put (repeat v4zero DEG_STACK_SIZE) 0 0 1 ;;
  '(ndu, _, _) <- for_up p 1 (ndu_outer_f fa fb u) (ndu, zeros, zeros) ;;
  ders <- for_up (p + 1) 0 (fun j ders =>
            x <- row_get ndu (Z.of_nat j) (Z.of_nat p) ;; row_put ders 0 (Z.of_nat j) x) ders ;;
  '(_, ders) <- for_up (p + 1) 0 (ders_r p n ndu) (repeat v4zero 2, ders) ;;
  '(_, ders) <- for_up n 1 (ders_factor p) (Z.of_nat p, ders) ;;
  Ok ders.

Lemma for_up_ext {S} (f g : nat -> S -> res S) : forall n start s, (forall i s, (start <= i < start + n)%nat -> f i s = g i s) ->
  for_up n start f s = for_up n start g s.
Proof.
  induction n; intros start s H; cbn [for_up]; [reflexivity|]. rewrite H by lia. destruct (g start s); cbn [bind]; try reflexivity.
  apply IHn. intros; apply H; lia.
Qed.

Definition at3 (V : nat -> Qc) (p : nat) : nat -> Qc := fun j => V (p + 1 - j)%nat.
Lemma ders_reads U u p n m : (m + p + p < length U)%nat ->
  ders_basis_funs (m + p) u p n U = ders_f (fun j => knot U (m + (p + 1 - j))) (fun j => knot U (m + (p + j))) u p n.
Proof.
  intros L. unfold ders_basis_funs, ders_f. destruct (row_put _ 0 0 1) as [ndu|e|]; cbn [bind]; try reflexivity.
  rewrite (for_up_ext (ndu_outer (m + p) u U) (ndu_outer_f (fun j => knot U (m + (p + 1 - j))) (fun j => knot U (m + (p + j))) u)); [reflexivity|].
  intros j [[nd lf] rg] Hj. unfold ndu_outer, ndu_outer_f. unfold getZ.
  destruct (Z.ltb_spec (Z.of_nat (m + p) + 1 - Z.of_nat j) 0); [lia|].
  rewrite (get_ok U (Z.to_nat (Z.of_nat (m + p) + 1 - Z.of_nat j)) 0) by lia. cbn [bind].
  rewrite (get_ok U (m + p + j) 0) by lia.
  rewrite !knot_nth by lia. replace (Z.to_nat (Z.of_nat (m + p) + 1 - Z.of_nat j)) with (m + (p + 1 - j))%nat by lia. rewrite <- (Nat.add_assoc m p j).
  reflexivity.
Qed.

Lemma diff_nz (a b : Qc) : a < b -> b - a <> 0.
Proof. intros H E. assert (b = a) by (replace b with (b - a + a) by ring; rewrite E; ring). subst. exact (Qcle_not_lt _ _ (Qcle_refl a) H). Qed.
Lemma qdiv_nz a b c u : c < b -> qdiv a (b - u + (u - c)) = Ok (a / (b - c)).
Proof. intros H. replace (b - u + (u - c)) with (b - c) by ring. unfold qdiv. destruct (Qceqb_spec (b - c) 0) as [E|]; [destruct (diff_nz _ _ H E)|reflexivity]. Qed.

Ltac run := cbv -[Qcplus Qcmult Qcminus Qcopp Qcdiv Qcinv qdiv Qc_of_Z Q2Qc bsp bspd].
Ltac step_div := match goal with |- context [qdiv ?a (?b - ?u + (?u - ?c))] => rewrite (qdiv_nz a b c u) by assumption end; run.

(** the entries of [ders] for a curve of degree p, in terms of the knots around the span *)
Definition ders_are (V : nat -> Qc) (u : Qc) (p n : nat) (ders : list vec4) : Prop :=
  length ders = (n + 1)%nat /\ forall k r, (k <= n)%nat -> (r <= p)%nat -> row_get ders (Z.of_nat k) (Z.of_nat r) = Ok (bspd V p k p r u).

Lemma three : Qc_of_Z 3 = 1 + 1 + 1. Proof. apply Qc_is_canon. reflexivity. Qed.
Lemma two : Qc_of_Z 2 = 1 + 1. Proof. apply Qc_is_canon. reflexivity. Qed.
Lemma six : Qc_of_Z 6 = (1 + 1) * (1 + 1 + 1). Proof. apply Qc_is_canon. reflexivity. Qed.
Lemma one : Qc_of_Z 1 = 1. Proof. apply Qc_is_canon. reflexivity. Qed.

(** compares one entry: all inverses are atoms *)
Ltac entry :=
  run; apply f_equal; unfold bspd, bsp; fold bspd; fold bsp; cbn [Nat.eqb Nat.add];
  repeat match goal with |- context [Qc_of_nat ?k] => change (Qc_of_nat k) with (Qc_of_Z (Z.of_nat k)) end; cbn [Z.of_nat Pos.of_succ_nat Pos.succ];
  rewrite ?six, ?three, ?two, ?one; unfold Qcdiv;
  repeat match goal with |- context [/ (?b - ?a)] => generalize (/ (b - a)); intros ? end;
  ring.
Ltac ders_case V u p n :=
  let D := fresh "D" in let E := fresh "E" in
  evar (D : list vec4);
  assert (ders_f (fun j => V (p + 1 - j)%nat) (fun j => V (p + j)%nat) u p n = Ok D) as E;
  [run; repeat step_div; unfold D; reflexivity|];
  rewrite E; exists D; split; [reflexivity|]; split; [reflexivity|]; unfold D; clear E D.

Lemma ders3 (V : nat -> Qc) u n : (n <= 3)%nat -> (forall i j, (1 <= i <= 3)%nat -> (4 <= j <= 6)%nat -> V i < V j) ->
  exists ders, ders_f (fun j => V (3 + 1 - j)%nat) (fun j => V (3 + j)%nat) u 3 n = Ok ders /\ ders_are V u 3 n ders.
Proof.
  intros Hn H. unfold ders_are.
  pose proof (H 1 4 ltac:(lia) ltac:(lia))%nat. pose proof (H 1 5 ltac:(lia) ltac:(lia))%nat. pose proof (H 1 6 ltac:(lia) ltac:(lia))%nat.
  pose proof (H 2 4 ltac:(lia) ltac:(lia))%nat. pose proof (H 2 5 ltac:(lia) ltac:(lia))%nat. pose proof (H 2 6 ltac:(lia) ltac:(lia))%nat.
  pose proof (H 3 4 ltac:(lia) ltac:(lia))%nat. pose proof (H 3 5 ltac:(lia) ltac:(lia))%nat. pose proof (H 3 6 ltac:(lia) ltac:(lia))%nat.
  clear H.
  assert (n = 0 \/ n = 1 \/ n = 2 \/ n = 3)%nat as [->|[->|[->| ->]]] by lia;
  [ders_case V u 3%nat 0%nat|ders_case V u 3%nat 1%nat|ders_case V u 3%nat 2%nat|ders_case V u 3%nat 3%nat];
  intros k r Hk Hr; assert (r = 0 \/ r = 1 \/ r = 2 \/ r = 3)%nat as Cr by lia; clear Hr.
  - assert (k = 0)%nat as -> by lia. destruct Cr as [->|[->|[->| ->]]]; entry.
  - assert (k = 0 \/ k = 1)%nat as [->| ->] by lia; destruct Cr as [->|[->|[->| ->]]]; entry.
  - assert (k = 0 \/ k = 1 \/ k = 2)%nat as [->|[->| ->]] by lia; destruct Cr as [->|[->|[->| ->]]]; entry.
  - assert (k = 0 \/ k = 1 \/ k = 2 \/ k = 3)%nat as [->|[->|[->| ->]]] by lia; destruct Cr as [->|[->|[->| ->]]]; entry.
Qed.

Lemma ders2 (V : nat -> Qc) u n : (n <= 2)%nat -> (forall i j, (1 <= i <= 2)%nat -> (3 <= j <= 4)%nat -> V i < V j) ->
  exists ders, ders_f (fun j => V (2 + 1 - j)%nat) (fun j => V (2 + j)%nat) u 2 n = Ok ders /\ ders_are V u 2 n ders.
Proof.
  intros Hn H. unfold ders_are.
  pose proof (H 1 3 ltac:(lia) ltac:(lia))%nat. pose proof (H 1 4 ltac:(lia) ltac:(lia))%nat.
  pose proof (H 2 3 ltac:(lia) ltac:(lia))%nat. pose proof (H 2 4 ltac:(lia) ltac:(lia))%nat. clear H.
  assert (n = 0 \/ n = 1 \/ n = 2)%nat as [->|[->| ->]] by lia;
  [ders_case V u 2%nat 0%nat|ders_case V u 2%nat 1%nat|ders_case V u 2%nat 2%nat];
  intros k r Hk Hr; assert (r = 0 \/ r = 1 \/ r = 2)%nat as Cr by lia; clear Hr.
  - assert (k = 0)%nat as -> by lia. destruct Cr as [->|[->| ->]]; entry.
  - assert (k = 0 \/ k = 1)%nat as [->| ->] by lia; destruct Cr as [->|[->| ->]]; entry.
  - assert (k = 0 \/ k = 1 \/ k = 2)%nat as [->|[->| ->]] by lia; destruct Cr as [->|[->| ->]]; entry.
Qed.

Lemma ders1 (V : nat -> Qc) u n : (n <= 1)%nat -> V 1%nat < V 2%nat ->
  exists ders, ders_f (fun j => V (1 + 1 - j)%nat) (fun j => V (1 + j)%nat) u 1 n = Ok ders /\ ders_are V u 1 n ders.
Proof.
  intros Hn H. unfold ders_are.
  assert (n = 0 \/ n = 1)%nat as [->| ->] by lia; [ders_case V u 1%nat 0%nat|ders_case V u 1%nat 1%nat];
  intros k r Hk Hr; assert (r = 0 \/ r = 1)%nat as Cr by lia; clear Hr.
  - assert (k = 0)%nat as -> by lia. destruct Cr as [->| ->]; entry.
  - assert (k = 0 \/ k = 1)%nat as [->| ->] by lia; destruct Cr as [->| ->]; entry.
Qed.

(** degree 0: one basis function, no derivative *)
Lemma ders0 (V : nat -> Qc) u : exists ders, ders_f (fun j => V (0 + 1 - j)%nat) (fun j => V (0 + j)%nat) u 0 0 = Ok ders /\ ders_are V u 0 0 ders.
Proof.
  eexists. split; [run; reflexivity|]. split; [reflexivity|]. intros k r Hk Hr. replace k with 0%nat by lia. replace r with 0%nat by lia. reflexivity.
Qed.

Lemma ders_spec U u p n s : (p <= 3)%nat -> (n <= p)%nat -> mono (knot U) -> span_ok (knot U) s u -> (p <= s)%nat -> (s + p < length U)%nat ->
  exists ders, ders_basis_funs s u p n U = Ok ders /\ length ders = (n + 1)%nat /\
    forall k r, (k <= n)%nat -> (r <= p)%nat -> row_get ders (Z.of_nat k) (Z.of_nat r) = Ok (bspd (knot U) s k p (s - p + r) u).
Proof.
  intros Hp Hn M (A & B & C) Hs L. set (m := (s - p)%nat). replace s with (m + p)%nat in * by (unfold m; lia). clearbody m.
  rewrite ders_reads by lia. set (V := fun j => knot U (m + j)%nat).
  assert (forall i j, (i <= p)%nat -> (p + 1 <= j)%nat -> V i < V j) as O.
  { intros i j Hi Hj. unfold V. assert (knot U (m + i) <= knot U (m + p)) by (apply M; lia). assert (knot U (S (m + p)) <= knot U (m + j)) by (apply M; lia). qc_lra. }
  assert (exists ders, ders_f (fun j => V (p + 1 - j)%nat) (fun j => V (p + j)%nat) u p n = Ok ders /\ ders_are V u p n ders) as (ders & E & L1 & R).
  { assert (p = 0 \/ p = 1 \/ p = 2 \/ p = 3)%nat as [->|[->|[->| ->]]] by lia.
    - replace n with 0%nat by lia. apply ders0.
    - apply ders1; [assumption|]. apply O; lia.
    - apply ders2; [assumption|]. intros; apply O; lia.
    - apply ders3; [assumption|]. intros; apply O; lia. }
  exists ders. split; [exact E|]. split; [exact L1|]. intros k r Hk Hr. rewrite R by assumption. f_equal. unfold V. rewrite <- bspd_shift. f_equal; lia.
Qed.
