(** Counterexamples and concrete cases for the surface properties. *)
From Coq Require Import List ZArith QArith Qcanon Lia Bool.
From Verif Require Import Base BaseFacts ModelVec ModelAabb ModelNurbs ModelSurface SpecAabb SpecNurbs SpecCurve SpecSurface
  ProofSurfaceTop WitnessNurbs.
Import ListNotations.
Open Scope Qc_scope.

Definition good_surf_b (s : nsurf) (n m : nat) : bool :=
  Nat.eqb (length (ns_cps s)) (S n) && forallb (fun row => Nat.eqb (length row) (S m)) (ns_cps s)
  && Nat.eqb (ns_su s) (S n) && Nat.eqb (ns_sv s) (S m)
  && (Nat.leb (ns_du s) n && Nat.eqb (length (ns_ku s)) (n + ns_du s + 2) && sorted_b (ns_ku s) && (knot (ns_ku s) n <? knot (ns_ku s) (n + 1)))
  && (Nat.leb (ns_dv s) m && Nat.eqb (length (ns_kv s)) (m + ns_dv s + 2) && sorted_b (ns_kv s) && (knot (ns_kv s) m <? knot (ns_kv s) (m + 1)))
  && Nat.leb (ns_du s) 8 && Nat.leb (ns_dv s) 8.
Lemma good_surf_b_ok s n m : good_surf_b s n m = true -> good_surf s n m.
Proof.
  unfold good_surf_b. rewrite !andb_true_iff. intros (((((((A & B) & C) & D) & (((E1 & E2) & E3) & E4)) & (((F1 & F2) & F3) & F4)) & G) & H).
  rewrite forallb_forall in B. apply Nat.eqb_eq in A, C, D, E2, F2. apply Nat.leb_le in E1, F1, G, H. apply sorted_b_ok in E3, F3.
  split; [exact A|]. split; [intros row Hr; apply Nat.eqb_eq, B, Hr|]. split; [exact C|]. split; [exact D|].
  split; [repeat split; try assumption; qcb; assumption|]. split; [repeat split; try assumption; qcb; assumption|]. auto.
Qed.
Definition weights_b (s : nsurf) (good : Qc -> bool) : bool := forallb (forallb (fun q => good (ww q))) (ns_cps s).
Lemma weights_b_ok s good (P : Qc -> Prop) : (forall w, good w = true -> P w) -> weights_b s good = true -> all_weights s P.
Proof. unfold weights_b. rewrite forallb_forall. intros H A row q Hr Hq. apply H. specialize (A row Hr). rewrite forallb_forall in A. auto. Qed.
Lemma pos_b s : weights_b s (fun w => 0 <? w) = true -> positive_surf s.
Proof. apply weights_b_ok. intros w H. qcb. exact H. Qed.
Lemma unit_b s : weights_b s (fun w => w =? 1) = true -> unit_surf s.
Proof. apply weights_b_ok. intros w H. qcb. exact H. Qed.

Definition ns_none : nsurf := ns_default.

(** a 4 x 3 net of degrees (2, 1), an interior knot in each direction *)
Definition demo_rows (w : nat -> nat -> Qc) : list (list vec4) :=
  map (fun i => map (fun j => let k := w i j in
    V4 (Qc_of_nat i * k) (Qc_of_nat j * k) (Qc_of_nat (i * j) * k) k) (seq 0 3)) (seq 0 4).
Definition demo_ku : list Qc := [0; 0; 0; 1; qc 3 1; qc 3 1; qc 3 1].
Definition demo_kv : list Qc := [0; 0; qc 1 2; 1; 1].
Definition demo_unit : nsurf := get_ok ns_none (ns_make (demo_rows (fun _ _ => 1)) 2 1 demo_ku demo_kv).
Definition demo_rat : nsurf := get_ok ns_none (ns_make (demo_rows (fun i j => Qc_of_nat (1 + i + 2 * j))) 2 1 demo_ku demo_kv).

Lemma demo_unit_good : good_surf demo_unit 3 2. Proof. apply good_surf_b_ok. vm_compute. reflexivity. Qed.
Lemma demo_rat_good : good_surf demo_rat 3 2. Proof. apply good_surf_b_ok. vm_compute. reflexivity. Qed.
Lemma demo_unit_unit : unit_surf demo_unit. Proof. apply unit_b. vm_compute. reflexivity. Qed.
Lemma demo_rat_pos : positive_surf demo_rat. Proof. apply pos_b. vm_compute. reflexivity. Qed.
Lemma demo_rat_not_unit : ~ unit_surf demo_rat.
Proof. intros H. specialize (H (nth 1 (ns_cps demo_rat) []) (nth 1 (nth 1 (ns_cps demo_rat) []) v4zero) (or_intror (or_introl eq_refl)) (or_intror (or_introl eq_refl))). vm_compute in H. discriminate H. Qed.

Definition pair_eqb (a b : Qc * Qc) : bool := Qceqb (fst a) (fst b) && Qceqb (snd a) (snd b).
Lemma pair_eqb_ok a b : pair_eqb a b = true -> a = b.
Proof. destruct a, b. unfold pair_eqb. cbn. rewrite andb_true_iff. intros [A B]. qcb. subst. reflexivity. Qed.
Lemma demo_unit_iv : intervals_current demo_unit. Proof. split; apply pair_eqb_ok; vm_compute; reflexivity. Qed.
Lemma demo_rat_iv : intervals_current demo_rat. Proof. split; apply pair_eqb_ok; vm_compute; reflexivity. Qed.

Lemma in_domain_b n p U u : (knot U p <=? u) && (u <=? knot U (n + 1)) = true -> in_domain n p U u.
Proof. rewrite andb_true_iff. intros [A B]. qcb. split; assumption. Qed.

Definition separated_b (U : list Qc) (t : Qc) : bool := forallb (fun x => (x =? t) || (tol12 <? x - t) || (tol12 <? t - x)) U.
Lemma separated_b_ok U t : separated_b U t = true -> separated U t.
Proof.
  unfold separated_b. rewrite forallb_forall. intros H x Hx. specialize (H x Hx). rewrite !orb_true_iff in H. destruct H as [[H|H]|H]; qcb; auto.
Qed.
Definition clamped_b (n p : nat) (U : list Qc) : bool :=
  forallb (fun i => knot U i =? knot U 0) (seq 0 (S p)) && forallb (fun i => knot U i =? knot U (n + 1)) (seq (n + 1) (S p)).
Lemma clamped_b_ok n p U : clamped_b n p U = true -> clamped n p U.
Proof.
  unfold clamped_b. rewrite andb_true_iff, !forallb_forall. intros [A B]. split; intros i Hi.
  - specialize (A i ltac:(apply in_seq; lia)). qcb. exact A.
  - intros Hi'. specialize (B i ltac:(apply in_seq; lia)). qcb. exact B.
Qed.

(** the hypotheses of C47, C85, C87-C89 hold of the rational surface, those of
    C48 and C92 of the polynomial one *)
Lemma demo_surface_ok :
  good_surf demo_rat 3 2 /\ positive_surf demo_rat /\ (~ unit_surf demo_rat) /\ intervals_current demo_rat /\
  in_surf demo_rat 3 2 1 (qc 1 2) /\
  separated (ns_ku demo_rat) 1 /\ multiplicity (ns_ku demo_rat) 1 = 1%nat /\
  separated (ns_kv demo_rat) (qc 1 2) /\ multiplicity (ns_kv demo_rat) (qc 1 2) = 1%nat /\
  (knot (ns_ku demo_rat) 2 < 1 /\ 1 < knot (ns_ku demo_rat) 4 /\ lit_1em7 < 1 - knot (ns_ku demo_rat) 2 /\ lit_1em7 < knot (ns_ku demo_rat) 4 - 1) /\
  good_surf demo_unit 3 2 /\ unit_surf demo_unit /\ intervals_current demo_unit /\
  clamped 3 2 (ns_ku demo_unit) /\ clamped 2 1 (ns_kv demo_unit).
Proof.
  split; [exact demo_rat_good|]. split; [exact demo_rat_pos|]. split; [exact demo_rat_not_unit|]. split; [exact demo_rat_iv|].
  split; [split; apply in_domain_b; vm_compute; reflexivity|].
  split; [apply separated_b_ok; vm_compute; reflexivity|]. split; [vm_compute; reflexivity|].
  split; [apply separated_b_ok; vm_compute; reflexivity|]. split; [vm_compute; reflexivity|].
  split; [split; [vm_compute; reflexivity|]; split; [vm_compute; reflexivity|]; split; vm_compute; reflexivity|].
  split; [exact demo_unit_good|]. split; [exact demo_unit_unit|]. split; [exact demo_unit_iv|].
  split; apply clamped_b_ok; vm_compute; reflexivity.
Qed.

(** C86 *)
Lemma surface_box_witness : exists cps du dv s n m u v pt, ns_make cps du dv [] [] = Ok s /\ good_surf s n m /\ unit_surf s /\
  in_surf s n m u v /\ ns_evaluate s u v = Ok pt /\ ~ inside (ns_aabb s) pt.
Proof.
  exists (demo_rows (fun _ _ => 1)), 2%nat, 1%nat, (get_ok ns_none (ns_make (demo_rows (fun _ _ => 1)) 2 1 [] [])), 3%nat, 2%nat, 1, 1.
  eexists (V3 (qc 3 2) 1 (qc 3 2)).
  split; [vm_compute; reflexivity|]. split; [apply good_surf_b_ok; vm_compute; reflexivity|]. split; [apply unit_b; vm_compute; reflexivity|].
  split; [split; apply in_domain_b; vm_compute; reflexivity|]. split; [apply v3_ok_eq; vm_compute; reflexivity|].
  intros H. destruct (H AX) as [H1 H2]. revert H1. vm_compute. intros H1. apply H1. reflexivity.
Qed.

(** C90 *)
Lemma derivative_witness : exists s n m d, good_surf s n m /\ unit_surf s /\ intervals_current s /\
  ns_get_derivative s 0 = Ok d /\ forall u v pt, ns_evaluate d u v <> Ok pt.
Proof.
  exists demo_unit, 3%nat, 2%nat, (get_ok ns_none (ns_get_derivative demo_unit 0)).
  split; [exact demo_unit_good|]. split; [exact demo_unit_unit|]. split; [exact demo_unit_iv|]. split; [vm_compute; reflexivity|].
  apply (derivative_never demo_unit 0); [exact demo_unit_unit|vm_compute; reflexivity].
Qed.

(** C91 *)
Lemma isocurve_box_witness : exists s n m t c x pt, good_surf s n m /\ unit_surf s /\ intervals_current s /\
  ns_isocurve s t true = Ok c /\ good_curve c m /\ in_curve c m x /\ evaluate c x = Ok pt /\ ~ inside (nc_aabb c) pt.
Proof.
  exists demo_unit, 3%nat, 2%nat, 1, (get_ok nc_default (ns_isocurve demo_unit 1 true)), (qc 1 2), (V3 (qc 4 3) 1 (qc 4 3)).
  split; [exact demo_unit_good|]. split; [exact demo_unit_unit|]. split; [exact demo_unit_iv|]. split; [vm_compute; reflexivity|].
  split; [apply good_b_ok; vm_compute; reflexivity|]. split; [split; vm_compute; discriminate|]. split; [apply v3_ok_eq; vm_compute; reflexivity|].
  intros H. destruct (H AX) as [H1 _]. revert H1. vm_compute. intros H1. apply H1. reflexivity.
Qed.

(** C92 *)
Lemma rational_isocurve_witness : exists s n m t c x pt pt', good_surf s n m /\ positive_surf s /\ intervals_current s /\
  in_surf s n m t x /\ ns_isocurve s t true = Ok c /\ good_curve c m /\ in_curve c m x /\
  evaluate c x = Ok pt /\ ns_evaluate s t x = Ok pt' /\ pt <> pt'.
Proof.
  exists demo_rat, 3%nat, 2%nat, 0, (get_ok nc_default (ns_isocurve demo_rat 0 true)), (qc 1 2), (V3 0 (qc 3 1) 0), (V3 0 1 0).
  split; [exact demo_rat_good|]. split; [exact demo_rat_pos|]. split; [exact demo_rat_iv|].
  split; [split; apply in_domain_b; vm_compute; reflexivity|]. split; [vm_compute; reflexivity|].
  split; [apply good_b_ok; vm_compute; reflexivity|]. split; [split; vm_compute; discriminate|].
  split; [apply v3_ok_eq; vm_compute; reflexivity|]. split; [apply v3_ok_eq; vm_compute; reflexivity|]. vm_compute. discriminate.
Qed.

(** C93 *)
Lemma free_isocurve_witness : exists s n m t c x pt pt', good_surf s n m /\ unit_surf s /\ intervals_current s /\
  in_surf s n m x t /\ free_isocurve s t false = Ok c /\ good_curve c n /\ in_curve c n x /\
  evaluate c x = Ok pt /\ ns_evaluate s x t = Ok pt' /\ pt <> pt'.
Proof.
  exists demo_unit, 3%nat, 2%nat, 0, (get_ok nc_default (free_isocurve demo_unit 0 false)), 1.
  exists (V3 (qc 3 2) 0 0), (V3 (qc 4 3) 0 0).
  split; [exact demo_unit_good|]. split; [exact demo_unit_unit|]. split; [exact demo_unit_iv|].
  split; [split; apply in_domain_b; vm_compute; reflexivity|]. split; [vm_compute; reflexivity|].
  split; [apply good_b_ok; vm_compute; reflexivity|]. split; [split; vm_compute; discriminate|].
  split; [apply v3_ok_eq; vm_compute; reflexivity|]. split; [apply v3_ok_eq; vm_compute; reflexivity|]. vm_compute. discriminate.
Qed.

Lemma halves_case : clamped 3 2 (ns_ku demo_rat) /\ clamped 2 1 (ns_kv demo_rat) /\
  separated (ns_ku demo_rat) (qc 3 2) /\ separated (ns_kv demo_rat) (qc 1 2) /\ exists a b c d, ns_subdivide demo_rat = Ok (a, b, c, d).
Proof.
  split; [apply clamped_b_ok; vm_compute; reflexivity|]. split; [apply clamped_b_ok; vm_compute; reflexivity|].
  split; [apply separated_b_ok; vm_compute; reflexivity|]. split; [apply separated_b_ok; vm_compute; reflexivity|]. vm_compute. eauto.
Qed.
