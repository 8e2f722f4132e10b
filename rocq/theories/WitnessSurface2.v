(** Concrete surfaces for the properties of PropsSurface2. *)
From Coq Require Import List ZArith QArith Qcanon Lia Bool.
From Verif Require Import Base BaseFacts ModelVec ModelAabb ModelNurbs ModelSurface ModelDerivative ModelPolygon ModelCsx ModelSurface2
  SpecAabb SpecNurbs SpecCurve SpecSurface SpecDerivative SpecSurface2
  ProofNurbs ProofNurbsMisc ProofDecompose ProofSurfaceTop ProofSurfaceBezier ProofSurfaceDiff WitnessNurbs WitnessSurface.
Import ListNotations.
Open Scope Qc_scope.

(** knots written out have the multiplicities written *)
Lemma runs_mult p t : forall mids x, gaps7 x (map fst mids) -> (forall s m, In (s, m) mids -> (1 <= m <= p)%nat) -> (multiplicity (runs mids) t <= p)%nat.
Proof.
  pose proof tol7_pos as TP. induction mids as [|[s m] mids IH]; intros x G H; [cbn; lia|]. cbn [map fst] in G. destruct G as [_ G].
  cbn [runs flat_map fst snd]. fold (runs mids). rewrite mult_app. specialize (IH s G (fun a b I => H a b (or_intror I))).
  destruct (Qc_eq_dec s t) as [->|N].
  - rewrite mult_repeat, (mult_not (runs mids)). { specialize (H t m (or_introl eq_refl)). lia. }
    intros X. apply in_runs in X. pose proof (gaps7_lower _ _ _ G X). qc_lra.
  - rewrite (mult_not (repeat s m)); [exact IH|]. intros X. apply repeat_spec in X. congruence.
Qed.
Lemma gaps7_app l l' : forall x, gaps7 x (l ++ l') -> gaps7 x l.
Proof. induction l as [|y l IH]; intros x H; [exact I|]. destruct H as [A B]. split; [exact A|apply IH; exact B]. Qed.
Lemma knots_are_inner n p U a mids b : valid_knots n p U -> knots_are U p a mids b -> inner_multiplicity n p U p.
Proof.
  intros V K t T1 T2.
  assert (knot U p = a /\ knot U (n + 1) = b) as [KA KB].
  { destruct mids as [|[x y] mids].
    - destruct (last_facts _ _ _ _ _ V K) as (A & B & _). auto.
    - destruct (step_facts _ _ _ _ _ _ _ _ V K) as (_ & _ & _ & A & B & _). auto. }
  rewrite KA in T1. rewrite KB in T2. destruct K as (K & G & H). rewrite K, !mult_app.
  rewrite (mult_not (repeat a _)) by (intros X; apply repeat_spec in X; subst; exact (Qclt_not_le _ _ T1 (Qcle_refl _))).
  rewrite (mult_not (repeat b _)) by (intros X; apply repeat_spec in X; subst; exact (Qclt_not_le _ _ T2 (Qcle_refl _))).
  pose proof (runs_mult p t mids a (gaps7_app _ _ _ G) H). lia.
Qed.

Lemma list_qc_eqb (l l' : list Qc) : forallb (fun x => Qceqb (fst x) (snd x)) (combine l l') = true -> length l = length l' -> l = l'.
Proof.
  revert l'. induction l as [|x l IH]; intros [|y l'] H L; try discriminate; [reflexivity|]. cbn in H. apply andb_true_iff in H. destruct H as [A B]. qcb.
  subst. f_equal. apply IH; [exact B|]. cbn in L. lia.
Qed.
Lemma demo_rat_knots_u : knots_are (ns_ku demo_rat) (ns_du demo_rat) 0 [(1, 1%nat)] (qc 3 1).
Proof.
  split; [apply list_qc_eqb; vm_compute; reflexivity|]. split; [split; [vm_compute; reflexivity|split; [vm_compute; reflexivity|exact I]]|].
  intros t m [E|[]]. inversion E. vm_compute. lia.
Qed.
Lemma demo_rat_knots_v : knots_are (ns_kv demo_rat) (ns_dv demo_rat) 0 [(qc 1 2, 1%nat)] 1.
Proof.
  split; [apply list_qc_eqb; vm_compute; reflexivity|]. split; [split; [vm_compute; reflexivity|split; [vm_compute; reflexivity|exact I]]|].
  intros t m [E|[]]. inversion E. vm_compute. lia.
Qed.
Lemma demo_rat_inner : inner_multiplicity 3 (ns_du demo_rat) (ns_ku demo_rat) (ns_du demo_rat) /\ inner_multiplicity 2 (ns_dv demo_rat) (ns_kv demo_rat) (ns_dv demo_rat).
Proof.
  pose proof demo_rat_good as (_ & _ & _ & _ & VU & VV & _).
  split; [exact (knots_are_inner _ _ _ _ _ _ VU demo_rat_knots_u)|exact (knots_are_inner _ _ _ _ _ _ VV demo_rat_knots_v)].
Qed.

Definition no_knot_b (U : list Qc) (lo hi : Qc) : bool := forallb (fun k => (k <=? lo) || (hi <? k)) U.
Lemma no_knot_b_ok U lo hi : no_knot_b U lo hi = true -> no_knot U lo hi.
Proof. unfold no_knot_b. rewrite forallb_forall. intros H k I. specialize (H k I). rewrite orb_true_iff in H. destruct H as [H|H]; qcb; auto. Qed.
Lemma demo_window : in_surf demo_unit 3 2 (qc 1 2 - fdm_h) (qc 1 4) /\ qc 1 2 + fdm_h < knot (ns_ku demo_unit) 4 /\ no_knot (ns_ku demo_unit) (qc 1 2 - fdm_h) (qc 1 2 + fdm_h) /\
  in_surf demo_unit 3 2 (qc 1 2) (qc 1 4 - fdm_h) /\ qc 1 4 + fdm_h < knot (ns_kv demo_unit) 3 /\ no_knot (ns_kv demo_unit) (qc 1 4 - fdm_h) (qc 1 4 + fdm_h).
Proof.
  split; [split; apply in_domain_b; vm_compute; reflexivity|]. split; [vm_compute; reflexivity|]. split; [apply no_knot_b_ok; vm_compute; reflexivity|].
  split; [split; apply in_domain_b; vm_compute; reflexivity|]. split; [vm_compute; reflexivity|]. apply no_knot_b_ok; vm_compute; reflexivity.
Qed.
Lemma demo_derivatives : ns_derivative_u demo_unit (qc 1 2) (qc 1 4) = Ok (V3 (qc 4 3) 0 (qc 2 3)) /\ ns_derivative_v demo_unit (qc 1 2) (qc 1 4) = Ok (V3 0 (qc 2 1) (qc 5 3)).
Proof. split; apply v3_ok_eq; vm_compute; reflexivity. Qed.

(** flat squares with sides of length k *)
Definition square (k : Qc) : nsurf :=
  get_ok ns_none (ns_make [[V4 0 0 0 1; V4 0 k 0 1]; [V4 k 0 0 1; V4 k k 0 1]] 1 1 [] []).
Definition half_square : nsurf := square (qc 1 2).
Definition big_square : nsurf := square (qc 2 1).
Lemma half_square_ok : good_surf half_square 1 1 /\ unit_surf half_square /\ in_surf half_square 1 1 (qc 1 2) (qc 1 2).
Proof. split; [apply good_surf_b_ok; vm_compute; reflexivity|]. split; [apply unit_b; vm_compute; reflexivity|]. split; apply in_domain_b; vm_compute; reflexivity. Qed.
Lemma half_derivatives : ns_derivative_u half_square (qc 1 2) (qc 1 2) = Ok (V3 (qc 1 2) 0 0) /\ ns_derivative_v half_square (qc 1 2) (qc 1 2) = Ok (V3 0 (qc 1 2) 0).
Proof. split; apply v3_ok_eq; vm_compute; reflexivity. Qed.
Lemma big_derivatives : ns_derivative_u big_square (qc 1 2) (qc 1 2) = Ok (V3 (qc 2 1) 0 0) /\ ns_derivative_v big_square (qc 1 2) (qc 1 2) = Ok (V3 0 (qc 2 1) 0).
Proof. split; apply v3_ok_eq; vm_compute; reflexivity. Qed.
Lemma normal_witness : exists s n m u v, good_surf s n m /\ unit_surf s /\ in_surf s n m u v /\
  forall len, len (V3 0 0 (qc 1 4)) = Some (qc 1 4) -> ns_normal len s u v = Ok (V3 0 0 (qc 1 4)).
Proof.
  exists half_square, 1%nat, 1%nat, (qc 1 2), (qc 1 2). destruct half_square_ok as (A & B & C). split; [exact A|]. split; [exact B|]. split; [exact C|].
  intros len L. destruct half_derivatives as [D1 D2].
  assert (v3cross (V3 (qc 1 2) 0 0) (V3 0 (qc 1 2) 0) = V3 0 0 (qc 1 4)) as E by (unfold v3cross; cbn [vx vy vz]; f_equal; apply Qc_is_canon; vm_compute; reflexivity).
  rewrite <- E in L |- *. apply (normal_short len _ _ _ _ _ _ D1 D2 L). discriminate.
Qed.

(** every point of the first is (1, 0, 0), of the second (1, 1, 0) *)
Definition still (p : vec4) : nsurf := get_ok ns_none (ns_make [[p; p]; [p; p]] 1 1 [] []).
Lemma cross_witness : exists a b n m u v c pa pb pc, good_surf a n m /\ unit_surf a /\ good_surf b n m /\ unit_surf b /\ in_surf a n m u v /\ in_surf b n m u v /\
  ns_cross a b = Ok c /\ ns_evaluate a u v = Ok pa /\ ns_evaluate b u v = Ok pb /\ ns_evaluate c u v = Ok pc /\
  v3cross pa pb = V3 0 0 1 /\ pc = V3 0 0 0.
Proof.
  exists (still (V4 1 0 0 1)), (still (V4 1 1 0 1)), 1%nat, 1%nat, (qc 1 2), (qc 1 2), (get_ok ns_none (ns_cross (still (V4 1 0 0 1)) (still (V4 1 1 0 1)))), (V3 1 0 0), (V3 1 1 0), (V3 0 0 0).
  split; [apply good_surf_b_ok; vm_compute; reflexivity|]. split; [apply unit_b; vm_compute; reflexivity|].
  split; [apply good_surf_b_ok; vm_compute; reflexivity|]. split; [apply unit_b; vm_compute; reflexivity|].
  split; [split; apply in_domain_b; vm_compute; reflexivity|]. split; [split; apply in_domain_b; vm_compute; reflexivity|].
  split; [vm_compute; reflexivity|]. do 3 (split; [apply v3_ok_eq; vm_compute; reflexivity|]). split; [|reflexivity].
  unfold v3cross; cbn [vx vy vz]; f_equal; apply Qc_is_canon; vm_compute; reflexivity.
Qed.
