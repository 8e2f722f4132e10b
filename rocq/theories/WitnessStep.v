(** Concrete cases for PropsStep. *)
From Coq Require Import String List ZArith QArith Qcanon Bool Lia.
From Verif Require Import Base BaseFacts ModelVec ModelNurbs ModelSurface ModelStep SpecNurbs SpecCurve SpecSurface SpecStep
  ProofStepTop ProofStepMean ProofStepEdge ProofStepOk WitnessNurbs WitnessSurface.
Import ListNotations.
Open Scope Qc_scope.

Definition apart_b (U : list Qc) : bool :=
  forallb (fun x => forallb (fun y => (y <=? x) || (Q2Qc (3022314549036573 # 302231454903657293676544) <=? y - x)) U) U.
Lemma apart_b_ok U : apart_b U = true -> knots_apart U.
Proof.
  unfold apart_b. rewrite forallb_forall. intros H x y Hx Hy L. specialize (H x Hx). rewrite forallb_forall in H. specialize (H y Hy). apply orb_true_iff in H as [H|H]; qcb; [|exact H].
  exfalso. exact (Qcle_not_lt _ _ H L).
Qed.

Lemma demo_curve_case : good_curve demo 3 /\ positive_weights (nc_cps demo) /\ knots_apart (nc_knots demo) /\ in_curve demo 3 (qc 1 2).
Proof.
  split; [apply good_b_ok; vm_compute; reflexivity|]. split; [|split; [apply apart_b_ok; vm_compute; reflexivity|apply in_domain_b; vm_compute; reflexivity]].
  assert (forallb (fun q => 0 <? ww q) (nc_cps demo) = true) as H by (vm_compute; reflexivity). rewrite forallb_forall in H. intros q Hq. apply Qcltb_iff. exact (H q Hq).
Qed.
Lemma demo_surface_case : good_surf demo_unit 3 2 /\ unit_surf demo_unit /\ positive_surf demo_unit /\ intervals_current demo_unit /\
  clamped 3 (ns_du demo_unit) (ns_ku demo_unit) /\ clamped 2 (ns_dv demo_unit) (ns_kv demo_unit) /\ knots_apart (ns_ku demo_unit) /\ knots_apart (ns_kv demo_unit).
Proof.
  split; [exact demo_unit_good|]. split; [exact demo_unit_unit|]. split; [apply pos_b; vm_compute; reflexivity|]. split; [exact demo_unit_iv|].
  split; [apply clamped_b_ok; vm_compute; reflexivity|]. split; [apply clamped_b_ok; vm_compute; reflexivity|]. split; apply apart_b_ok; vm_compute; reflexivity.
Qed.
Lemma demo_exported : exists r, ns_step demo_unit (10%Z, []) = Ok r.
Proof.
  destruct demo_surface_case as (G & W & _ & IC & CU & CV & _). apply (export_ok demo_unit 3 2); try assumption; [lia|vm_compute; reflexivity].
Qed.

Lemma demo_corners : exists A B C D, ns_evaluate demo_unit (fst (ns_iu demo_unit)) (fst (ns_iv demo_unit)) = Ok A /\ ns_evaluate demo_unit (snd (ns_iu demo_unit)) (fst (ns_iv demo_unit)) = Ok B /\
  ns_evaluate demo_unit (snd (ns_iu demo_unit)) (snd (ns_iv demo_unit)) = Ok C /\ ns_evaluate demo_unit (fst (ns_iu demo_unit)) (snd (ns_iv demo_unit)) = Ok D /\
  A <> B /\ A <> C /\ A <> D /\ B <> C /\ B <> D /\ C <> D.
Proof.
  destruct (ns_evaluate demo_unit (fst (ns_iu demo_unit)) (fst (ns_iv demo_unit))) as [A| |] eqn:EA; [|exfalso; vm_compute in EA; discriminate EA..].
  destruct (ns_evaluate demo_unit (snd (ns_iu demo_unit)) (fst (ns_iv demo_unit))) as [B| |] eqn:EB; [|exfalso; vm_compute in EB; discriminate EB..].
  destruct (ns_evaluate demo_unit (snd (ns_iu demo_unit)) (snd (ns_iv demo_unit))) as [C| |] eqn:EC; [|exfalso; vm_compute in EC; discriminate EC..].
  destruct (ns_evaluate demo_unit (fst (ns_iu demo_unit)) (snd (ns_iv demo_unit))) as [D| |] eqn:ED; [|exfalso; vm_compute in ED; discriminate ED..].
  exists A, B, C, D. do 4 (split; [reflexivity|]). vm_compute in EA, EB, EC, ED. injection EA as <-. injection EB as <-. injection EC as <-. injection ED as <-.
  repeat split; intros H; discriminate H.
Qed.

Lemma edges_wrong : exists s n m bs id lines e c a b a' b',
  good_surf s n m /\ unit_surf s /\ intervals_current s /\ clamped n (ns_du s) (ns_ku s) /\ clamped m (ns_dv s) (ns_kv s) /\
  ns_step s (10%Z, []) = Ok (bs, (id, lines)) /\ edge_entity lines e a b c /\ runs_between lines c a' b' /\ (a, b) <> (a', b') /\ (a, b) <> (b', a').
Proof.
  destruct demo_surface_case as (G & W & _ & IC & CU & CV & KU & KV). destruct demo_exported as ([bs [id out]] & E). destruct demo_corners as (A & B & C & D & EA & EB & EC & ED & N1 & N2 & N3 & N4 & N5 & N6).
  destruct (edges_of _ _ _ _ _ _ _ _ _ _ _ _ G W IC CU CV KU KV EA EB EC ED E) as (lines & e & c0 & c1 & c2 & c3 & -> & E0 & R0 & _).
  exists demo_unit, 3%nat, 2%nat, bs, id, lines, e, c0, A, B, A, D. cbn [app] in E. repeat (split; [assumption|]). split; congruence.
Qed.

(** two curves, one text *)
Definition seg (x : Qc) : ncurve := get_ok nc_default (nc_make [V4 0 0 0 1; V4 x 0 0 1] 1 false).
Definition near1 : Qc := Q2Qc (1048577 # 1048576).
Lemma seg_case : good_curve (seg 1) 1 /\ good_curve (seg near1) 1 /\ evaluate (seg 1) 1 <> evaluate (seg near1) 1 /\
  exists i id l l', nc_step (seg 1) (10%Z, []) = Ok (i, (id, l)) /\ nc_step (seg near1) (10%Z, []) = Ok (i, (id, l')) /\ map printed l = map printed l'.
Proof.
  split; [apply good_b_ok; vm_compute; reflexivity|]. split; [apply good_b_ok; vm_compute; reflexivity|].
  split; [intros H; vm_compute in H; discriminate H|].
  do 4 eexists. split; [vm_compute; reflexivity|]. split; [vm_compute; reflexivity|]. vm_compute. reflexivity.
Qed.
