(** Consequences of refinement, and removal of knots. *)
From Coq Require Import List ZArith QArith Qcanon Bool Lia Lqa Field.
From Verif Require Import Base BaseFacts LoopFacts ModelVec ModelNurbs ModelSurface ModelRefine SpecNurbs SpecRefine
  ProofBspline ProofNurbs ProofInsertCurve ProofCcx ProofRefine ProofRefineTop.
Import ListNotations.
Open Scope Qc_scope.

Lemma unit_combination c V m p Q u : length Q = S m -> unit_weights Q -> weighted_at c V m p Q u = combination c V m p Q u.
Proof.
  intros L W. unfold weighted_at, combination. apply qsum_ext. intros i Hi. rewrite (W (nth i Q (V4 0 0 0 0))) by (apply nth_In; lia). ring.
Qed.
Lemma unit_point V m p Q u : length Q = S m -> unit_weights Q ->
  rational_point V m p Q u = V3 (combination wx V m p Q u / combination ww V m p Q u) (combination wy V m p Q u / combination ww V m p Q u) (combination wz V m p Q u / combination ww V m p Q u).
Proof. intros L W. unfold rational_point. cbv zeta. rewrite !unit_combination by assumption. reflexivity. Qed.

Lemma refined_points n p U P kl al density Q V : (1 <= p)%nat -> valid_knots n p U -> clamped n p U -> length P = S n -> unit_weights P ->
  (forall x, In x (kl ++ al) -> in_domain n p U x) ->
  coarse (fun x => In x U \/ asked n p U kl al density x) ->
  knot_refinement p U P kl al density = Ok (Q, V) ->
  unit_weights Q /\ forall u, in_domain n p U u -> rational_point V (length Q - 1) p Q u = rational_point U n p P u.
Proof.
  intros Hp VK CL LP W HD CO E. destruct (refinement_ok n p U P kl al density Hp VK CL LP HD CO) as [(Q' & V' & m & E' & _ & LQ & _ & _ & _ & _ & _ & _ & WQ & EQ)|(E' & _)]; [|congruence].
  rewrite E' in E. injection E as -> ->. split; [exact (WQ W)|]. intros u Hu. rewrite LQ. cbn [Nat.sub]. rewrite Nat.sub_0_r.
  rewrite (unit_point V m p Q u LQ (WQ W)), (unit_point U n p P u LP W). unfold coordinate in EQ. rewrite !EQ by (auto 6). reflexivity.
Qed.

(** ** removal *)
Lemma bind_inv {A B} (r : res A) (f : A -> res B) b : bind r f = Ok b -> exists a, r = Ok a /\ f a = Ok b.
Proof. destruct r; try discriminate. cbn. eauto. Qed.
Lemma set_nth_length {A} (l : list A) i x l' : set_nth l i x = Ok l' -> length l' = length l.
Proof.
  intros E. destruct (Nat.lt_ge_cases i (length l)) as [H|H].
  - destruct (set_nth_ok l i x H) as (l1 & E1 & L1 & _). rewrite E in E1. injection E1 as <-. exact L1.
  - exfalso. revert i H E. revert l'. induction l as [|a l IH]; intros l' i H E; [destruct i; discriminate E|]. destruct i as [|i]; [cbn in H; lia|]. cbn in E.
    destruct (set_nth l i x) as [t| |] eqn:F; try discriminate. apply (IH t i); [cbn in H; lia|exact F].
Qed.
Lemma set_nthZ_length {A} (l : list A) i x l' : set_nthZ l i x = Ok l' -> length l' = length l.
Proof. unfold set_nthZ. destruct (i <? 0)%Z; [discriminate|]. apply set_nth_length. Qed.

Lemma removal_out_length fuel t : forall i j first temp new new', removal_out fuel t i j first temp new = Ok new' -> length new' = length new.
Proof.
  induction fuel as [|fuel IH]; intros i j first temp new new'; cbn [removal_out]; destruct (t <? j - i)%Z; try discriminate; try (intros [= <-]; reflexivity).
  intros E. apply bind_inv in E as (x & _ & E). apply bind_inv in E as (n1 & E1 & E). apply bind_inv in E as (y & _ & E). apply bind_inv in E as (n2 & E2 & E).
  apply IH in E. rewrite E, (set_nthZ_length _ _ _ _ E2). apply (set_nthZ_length _ _ _ _ E1).
Qed.
Lemma removal_length p U P u tol num Q : knot_removal p U P u tol num = Ok Q -> (length Q + num = length P)%nat.
Proof.
  unfold knot_removal. destruct P as [|P0 P'] eqn:EP; [discriminate|]. rewrite <- EP. intros E. apply bind_inv in E as (r & _ & E). apply bind_inv in E as ((((new & tp) & a) & b) & E1 & E).
  assert (length new = length P) as L.
  { refine (for_up_pres (fun st => length (fst (fst (fst st))) = length P) _ num _ _ _ _ _ E1); [|reflexivity].
    intros i (((new0 & tp0) & a0) & b0) (((new1 & tp1) & a1) & b1) L0 ES. cbn [fst] in *. unfold removal_round in ES.
    apply bind_inv in ES as (? & _ & ES). apply bind_inv in ES as (? & _ & ES). apply bind_inv in ES as (? & _ & ES). apply bind_inv in ES as (? & _ & ES).
    apply bind_inv in ES as (((((i1 & j1) & ii1) & jj1) & tp2) & _ & ES).
    apply bind_inv in ES as (ok & _ & ES). apply bind_inv in ES as (new2 & E2 & ES). injection ES as -> _ _ _. destruct ok; [rewrite (removal_out_length _ _ _ _ _ _ _ _ E2); exact L0|injection E2 as ->; exact L0]. }
  destruct (Nat.ltb_spec (length new) num); [discriminate|]. injection E as <-. rewrite firstn_length. lia.
Qed.
