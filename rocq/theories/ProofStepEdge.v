(** The edges of an exported surface. *)
From Coq Require Import String Ascii List ZArith QArith Qcanon Bool Lia.
From Verif Require Import Base BaseFacts LoopFacts ModelVec ModelNurbs ModelMemView ModelSurface ModelStep SpecNurbs SpecCurve SpecSurface SpecStep
  ProofBspline ProofNurbs ProofNurbsTop ProofSurface ProofSurfaceTop ProofRefineMisc ProofStep ProofStepSurf ProofStepTop ProofStepMean.
Import ListNotations.
Open Scope Z_scope.

Lemma ends_in N p U : valid_knots N p U -> clamped N p U ->
  knot U 0 = knot U p /\ knot U (List.length U - 1) = knot U (N + 1) /\ in_domain N p U (knot U p) /\ in_domain N p U (knot U (N + 1)).
Proof.
  intros V (A & B). pose proof V as (P & L & S & _). pose proof (sorted_mono U S) as M. split; [symmetry; apply A; lia|]. split; [apply B; lia|].
  unfold in_domain. repeat split; try apply Qcle_refl; apply M; lia.
Qed.

Definition boundary (s : nsurf) (n m : nat) (t : Qc) (dir : bool) (c : ncurve) (a b : vec3) : Prop :=
  good_curve c (if dir then m else n) /\ nc_knots c = (if dir then ns_kv s else ns_ku s) /\ positive_weights (nc_cps c) /\
  evaluate c (fst (nc_interval c)) = Ok a /\ evaluate c (snd (nc_interval c)) = Ok b /\
  fst (nc_interval c) = knot (nc_knots c) (nc_degree c) /\ snd (nc_interval c) = knot (nc_knots c) ((if dir then m else n) + 1).
Lemma boundary_ok s n m t (dir : bool) a b : good_surf s n m -> unit_surf s -> intervals_current s ->
  clamped n (ns_du s) (ns_ku s) -> clamped m (ns_dv s) (ns_kv s) ->
  (if dir then in_domain n (ns_du s) (ns_ku s) t else in_domain m (ns_dv s) (ns_kv s) t) ->
  ns_evaluate s (if dir then t else fst (ns_iu s)) (if dir then fst (ns_iv s) else t) = Ok a ->
  ns_evaluate s (if dir then t else snd (ns_iu s)) (if dir then snd (ns_iv s) else t) = Ok b ->
  exists c, ns_isocurve s t dir = Ok c /\ boundary s n m t dir c a b.
Proof.
  intros G W IC CU CV D EA EB. pose proof G as (_ & _ & _ & _ & VU & VV & _). pose proof IC as (IU & IV).
  destruct (isocurve_top s n m t dir G W IC D) as (c & E & GC & EK & ED & UW & CC & F). exists c. split; [exact E|].
  destruct (ends_in _ _ _ VU CU) as (U0 & U1 & DU0 & DU1). destruct (ends_in _ _ _ VV CV) as (V0 & V1 & DV0 & DV1). unfold interval_current in CC. rewrite IU in *. rewrite IV in *. cbn [fst snd] in *.
  unfold boundary. rewrite CC. cbn [fst snd]. unfold in_curve in F. rewrite EK, ED in *.
  assert (positive_weights (nc_cps c)) as PW by (intros q Hq; rewrite (UW q Hq); reflexivity).
  destruct dir; (split; [exact GC|split; [reflexivity|split; [exact PW|]]]).
  - rewrite V0, V1 in *. destruct (F _ DV0) as (p0 & E0 & S0). destruct (F _ DV1) as (p1 & E1 & S1). rewrite EA in S0. rewrite EB in S1. injection S0 as ->. injection S1 as ->. auto.
  - rewrite U0, U1 in *. destruct (F _ DU0) as (p0 & E0 & S0). destruct (F _ DU1) as (p1 & E1 & S1). rewrite EA in S0. rewrite EB in S1. injection S0 as ->. injection S1 as ->. auto.
Qed.

Lemma boundary_runs s n m t dir c a b id0 bl i lines : boundary s n m t dir c a b -> knots_apart (ns_ku s) -> knots_apart (ns_kv s) -> curve_block c id0 bl ->
  (exists l, last bl (0, []) = l /\ fst l = i) -> incl bl lines -> runs_between lines i a b.
Proof.
  intros (GC & EK & PW & EA & EB & IA & IB) KU KV B L I. pose proof GC as (LC & VC & _). pose proof VC as (Pn & LU & HS & _). set (N := if dir then m else n) in *.
  exists (nc_degree c), N, (map xyz (nc_cps c)), (map ww (nc_cps c)), (nc_knots c).
  split; [eapply block_entity; [exact B|exact HS|rewrite EK; destruct dir; assumption|exact L|exact I]|]. split; [rewrite map_length; exact LC|].
  rewrite !entity_curve. pose proof (sorted_mono _ HS) as M. rewrite IA in EA. rewrite IB in EB.
  destruct (evaluate_top c N _ GC (conj (Qcle_refl _) (M (nc_degree c) (N + 1)%nat ltac:(clear - Pn; lia))) PW) as [E0 _].
  destruct (evaluate_top c N _ GC (conj (M (nc_degree c) (N + 1)%nat ltac:(clear - Pn; lia)) (Qcle_refl _)) PW) as [E1 _].
  rewrite E0 in EA. rewrite E1 in EB. injection EA as ->. injection EB as ->. split; reflexivity.
Qed.

Lemma edges_of s n m id out bs id' out' A B C D : good_surf s n m -> unit_surf s -> intervals_current s ->
  clamped n (ns_du s) (ns_ku s) -> clamped m (ns_dv s) (ns_kv s) -> knots_apart (ns_ku s) -> knots_apart (ns_kv s) ->
  ns_evaluate s (fst (ns_iu s)) (fst (ns_iv s)) = Ok A -> ns_evaluate s (snd (ns_iu s)) (fst (ns_iv s)) = Ok B ->
  ns_evaluate s (snd (ns_iu s)) (snd (ns_iv s)) = Ok C -> ns_evaluate s (fst (ns_iu s)) (snd (ns_iv s)) = Ok D ->
  ns_step s (id, out) = Ok (bs, (id', out')) ->
  exists lines e c0 c1 c2 c3, out' = out ++ lines /\
    edge_entity lines e A B c0 /\ runs_between lines c0 A D /\
    edge_entity lines (e + 1) B B c1 /\ runs_between lines c1 B C /\
    edge_entity lines (e + 2) B C c2 /\ runs_between lines c2 A B /\
    edge_entity lines (e + 3) C A c3 /\ runs_between lines c3 D C.
Proof.
  intros G W IC CU CV KU KV EA EB EC ED E. destruct (ns_step_adds _ _ _ _ E) as (new & [A1 A2] & X). cbn [fst snd] in *. injection A1 as -> ->. clear E.
  destruct X as (P & news & bnd & blocks & ps & c0 & c1 & c2 & c3 & v0 & v1 & v2 & v3 & _ & _ & _ & _ & Eb & F3 & G3 & EC4 & K). cbv zeta in K. destruct K as (EV & En).
  pose proof G as (_ & _ & _ & _ & VU & VV & _). pose proof IC as (IU & IV).
  destruct (ends_in _ _ _ VU CU) as (U0 & U1 & DU0 & DU1). destruct (ends_in _ _ _ VV CV) as (V0 & V1 & DV0 & DV1).
  assert (in_domain n (ns_du s) (ns_ku s) (fst (ns_iu s))) as I1 by (rewrite IU; cbn [fst]; rewrite U0; exact DU0).
  assert (in_domain n (ns_du s) (ns_ku s) (snd (ns_iu s))) as I2 by (rewrite IU; cbn [snd]; rewrite U1; exact DU1).
  assert (in_domain m (ns_dv s) (ns_kv s) (fst (ns_iv s))) as I3 by (rewrite IV; cbn [fst]; rewrite V0; exact DV0).
  assert (in_domain m (ns_dv s) (ns_kv s) (snd (ns_iv s))) as I4 by (rewrite IV; cbn [snd]; rewrite V1; exact DV1).
  destruct (boundary_ok s n m (fst (ns_iu s)) true A D G W IC CU CV I1 EA ED) as (b0 & X0 & B0).
  destruct (boundary_ok s n m (snd (ns_iu s)) true B C G W IC CU CV I2 EB EC) as (b1 & X1 & B1).
  destruct (boundary_ok s n m (fst (ns_iv s)) false A B G W IC CU CV I3 EA EB) as (b2 & X2 & B2).
  destruct (boundary_ok s n m (snd (ns_iv s)) false D C G W IC CU CV I4 ED EC) as (b3 & X3 & B3).
  unfold ns_boundaries in Eb. rewrite X0, X1, X2, X3 in Eb. cbn [bind] in Eb. injection Eb as <-.
  assert (ps = [A; B; B; C]) as ->.
  { unfold corners, corner in EC4. cbn [Nat.ltb Nat.leb] in EC4. destruct B0 as (_ & _ & _ & Q0 & _). destruct B1 as (_ & _ & _ & Q1 & _). destruct B2 as (_ & _ & _ & _ & Q2 & _). destruct B3 as (_ & _ & _ & _ & Q3 & _).
    rewrite Q0, Q1, Q2, Q3 in EC4. cbn [bind] in EC4. injection EC4 as <-. reflexivity. }
  set (k := bs + 1 + Z.of_nat (List.length (concat blocks))) in *. cbn [corner_ids] in EV. injection EV as <- <- <- <-. cbn [corner_lines List.length] in En. change (Z.of_nat 8) with 8 in En.
  assert (incl (concat blocks) new) as SB by (intros x Hx; rewrite En; do 2 (apply in_app_iff; right); apply in_app_iff; left; exact Hx).
  assert (incl (corner_lines k [A; B; B; C]) new) as SC by (intros x Hx; rewrite En; do 3 (apply in_app_iff; right); apply in_app_iff; left; exact Hx).
  assert (incl (tail_lines (k + 8) bs c0 c1 c2 c3 (k + 1) (k + 1 + 1 + 1) (k + 1 + 1 + 1 + 1 + 1) (k + 1 + 1 + 1 + 1 + 1 + 1 + 1)) new) as ST by (intros x Hx; rewrite En; do 4 (apply in_app_iff; right); exact Hx).
  clear En A2 EC4. clearbody k.
  inversion F3 as [|? bl0 ? ? (i0 & K0 & _) F31]; subst. inversion F31 as [|? bl1 ? ? (i1 & K1 & _) F32]; subst. inversion F32 as [|? bl2 ? ? (i2 & K2 & _) F33]; subst.
  inversion F33 as [|? bl3 ? ? (i3 & K3 & _) F34]; subst. inversion F34; subst. clear F3 F31 F32 F33 F34.
  inversion G3 as [|? ? ? ? L0 G31]; subst. inversion G31 as [|? ? ? ? L1 G32]; subst. inversion G32 as [|? ? ? ? L2 G33]; subst. inversion G33 as [|? ? ? ? L3 _]; subst. clear G3 G31 G32 G33.
  cbn [concat] in SB.
  assert (incl bl0 new) as S0 by (intros x Hx; apply SB; rewrite !in_app_iff; tauto). assert (incl bl1 new) as S1 by (intros x Hx; apply SB; rewrite !in_app_iff; tauto).
  assert (incl bl2 new) as S2 by (intros x Hx; apply SB; rewrite !in_app_iff; tauto). assert (incl bl3 new) as S3 by (intros x Hx; apply SB; rewrite !in_app_iff; tauto).
  exists new, (k + 8), c0, c1, c2, c3. split; [reflexivity|].
  assert (forall i j p, In (i, point_text (vx p) (vy p) (vz p)) (corner_lines k [A; B; B; C]) -> In (j, txt "VERTEX_POINT('', " ++ Ref i :: txt ")") (corner_lines k [A; B; B; C]) -> In (j, txt "VERTEX_POINT" ++ listing [txt "''"; [Ref i]]) new /\ has_point new i p) as VP.
  { intros i j p Hi Hj. split; [apply SC in Hj; exact Hj|apply SC in Hi; exact Hi]. }
  destruct (VP k (k + 1) A) as [Q1 Q2]; [left; reflexivity|right; left; reflexivity|].
  destruct (VP (k + 1 + 1) (k + 1 + 1 + 1) B) as [Q3 Q4]; [do 2 right; left; reflexivity|do 3 right; left; reflexivity|].
  destruct (VP (k + 1 + 1 + 1 + 1) (k + 1 + 1 + 1 + 1 + 1) B) as [Q5 Q6]; [do 4 right; left; reflexivity|do 5 right; left; reflexivity|].
  destruct (VP (k + 1 + 1 + 1 + 1 + 1 + 1) (k + 1 + 1 + 1 + 1 + 1 + 1 + 1) C) as [Q7 Q8]; [do 6 right; left; reflexivity|do 7 right; left; reflexivity|].
  split; [do 4 eexists; split; [apply ST; left; reflexivity|split; [exact Q1|split; [exact Q2|split; [exact Q3|exact Q4]]]]|].
  split; [exact (boundary_runs _ _ _ _ _ _ _ _ _ _ _ _ B0 KU KV K0 L0 S0)|].
  split; [do 4 eexists; split; [apply ST; right; left; reflexivity|split; [exact Q3|split; [exact Q4|split; [exact Q5|exact Q6]]]]|].
  split; [exact (boundary_runs _ _ _ _ _ _ _ _ _ _ _ _ B1 KU KV K1 L1 S1)|].
  split; [replace (k + 8 + 2) with (k + 8 + 1 + 1) by lia; do 4 eexists; split; [apply ST; do 2 right; left; reflexivity|split; [exact Q5|split; [exact Q6|split; [exact Q7|exact Q8]]]]|].
  split; [exact (boundary_runs _ _ _ _ _ _ _ _ _ _ _ _ B2 KU KV K2 L2 S2)|].
  split; [replace (k + 8 + 3) with (k + 8 + 1 + 1 + 1) by lia; do 4 eexists; split; [apply ST; do 3 right; left; reflexivity|split; [exact Q7|split; [exact Q8|split; [exact Q1|exact Q2]]]]|].
  exact (boundary_runs _ _ _ _ _ _ _ _ _ _ _ _ B3 KU KV K3 L3 S3).
Qed.
