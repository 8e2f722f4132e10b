(** Properties C198-C205: the STEP export. *)
From Coq Require Import String List ZArith QArith Qcanon.
From Verif Require Import Base ModelVec ModelNurbs ModelSurface ModelStep SpecNurbs SpecCurve SpecSurface SpecStep
  ProofStepTop ProofStepMean ProofStepEdge ProofStepOk ProofStepDigits WitnessNurbs WitnessSurface WitnessStep.
Import ListNotations.
Open Scope Qc_scope.

(** C198 *)
Theorem C198_export_numbers_entities :
  forall s id out bs id' out', ns_step s (id, out) = Ok (bs, (id', out')) ->
  exists new, out' = out ++ new /\ id' = (id + Z.of_nat (List.length new))%Z /\ map fst new = from id (List.length new).
Proof. exact ids_ok. Qed.
Print Assumptions C198_export_numbers_entities.
Theorem C198_file_numbers_entities :
  forall s out, write_step_file true s = Ok out -> map fst out = from 10 (List.length out).
Proof. exact file_ok. Qed.
Print Assumptions C198_file_numbers_entities.
Theorem C198_export_succeeds :
  forall s n m id out, good_surf s n m -> unit_surf s -> intervals_current s ->
  clamped n (ns_du s) (ns_ku s) -> clamped m (ns_dv s) (ns_kv s) ->
  (0 <= id)%Z -> (id + Z.of_nat (S n * S m + 2 * (n + m) + 46) < 2 ^ 31)%Z -> exists r, ns_step s (id, out) = Ok r.
Proof. exact export_ok. Qed.
Print Assumptions C198_export_succeeds.
Example C198_example : (exists r, ns_step demo_unit (10%Z, []) = Ok r) /\ from 10 3 = [10; 11; 12]%Z.
Proof. split; [exact demo_exported|reflexivity]. Qed.

(** C199 *)
Theorem C199_export_refers_inside :
  forall s id out bs id' out', ns_step s (id, out) = Ok (bs, (id', out')) ->
  exists new, out' = out ++ new /\ forall i t r, In (i, t) new -> In r (refs t) -> In r (map fst new).
Proof. exact refs_ok. Qed.
Print Assumptions C199_export_refers_inside.
Example C199_example : exists r, ns_step demo_unit (10%Z, []) = Ok r.
Proof. exact demo_exported. Qed.

(** C200: every export has a line that refers to an entity of the wrong kind ... *)
Theorem C200_references_have_the_right_kind_refuted :
  forall s id out bs id' out', ns_step s (id, out) = Ok (bs, (id', out')) ->
  exists new i t ks, out' = out ++ new /\ In (i, t) new /\ wants (kind t) = Some ks /\ ~ Forall2 (is_a new) (refs t) ks.
Proof. intros s id out bs id' out' E. destruct (kinds_ok _ _ _ _ _ _ E) as (new & E' & (i & t & ks & H) & _). exists new, i, t, ks. exact (conj E' H). Qed.
Print Assumptions C200_references_have_the_right_kind_refuted.
(** ... but only lines of these four kinds do. *)
Theorem C200_references_have_the_right_kind_partial :
  forall s id out bs id' out', ns_step s (id, out) = Ok (bs, (id', out')) ->
  exists new, out' = out ++ new /\ forall i t, In (i, t) new ->
    (~ In (kind t) ["PRODUCT_DEFINITION"; "PRODUCT_DEFINITION_CONTEXT"; "APPLICATION_PROTOCOL_DEFINITION";
                    "PRODUCT_DEFINITION_FORMATION_WITH_SPECIFIED_SOURCE"]%string ->
     forall ks, wants (kind t) = Some ks -> Forall2 (is_a new) (refs t) ks) /\
    (kind t = "RATIONAL_B_SPLINE_CURVE_WITH_KNOTS"%string \/ kind t = "RATIONAL_B_SPLINE_SURFACE_WITH_KNOTS"%string ->
     Forall (fun r => is_a new r "CARTESIAN_POINT") (refs t)).
Proof. intros s id out bs id' out' E. destruct (kinds_ok _ _ _ _ _ _ E) as (new & E' & _ & H). exists new. exact (conj E' H). Qed.
Print Assumptions C200_references_have_the_right_kind_partial.
Example C200_example : exists r, ns_step demo_unit (10%Z, []) = Ok r.
Proof. exact demo_exported. Qed.

(** C201: every export has a line whose brackets do not match ... *)
Theorem C201_brackets_match_refuted :
  forall s id out bs id' out', ns_step s (id, out) = Ok (bs, (id', out')) ->
  exists new i t, out' = out ++ new /\ In (i, t) new /\ brackets 0 t = false.
Proof. intros s id out bs id' out' E. destruct (brackets_ok _ _ _ _ _ _ E) as (new & E' & (i & t & H) & _). exists new, i, t. exact (conj E' H). Qed.
Print Assumptions C201_brackets_match_refuted.
(** ... and it is the only kind of line for which they do not. *)
Theorem C201_brackets_match_partial :
  forall s id out bs id' out', ns_step s (id, out) = Ok (bs, (id', out')) ->
  exists new, out' = out ++ new /\ forall i t, In (i, t) new -> kind t <> "PRODUCT_RELATED_PRODUCT_CATEGORY"%string -> brackets 0 t = true.
Proof. intros s id out bs id' out' E. destruct (brackets_ok _ _ _ _ _ _ E) as (new & E' & _ & H). exists new. exact (conj E' H). Qed.
Print Assumptions C201_brackets_match_partial.
Example C201_example : (exists r, ns_step demo_unit (10%Z, []) = Ok r) /\ brackets 0 (txt "(()") = false /\ brackets 0 (txt "(())()") = true.
Proof. split; [exact demo_exported|split; reflexivity]. Qed.

(** C202 *)
Theorem C202_exported_curve_is_the_curve :
  forall c n id out, good_curve c n -> positive_weights (nc_cps c) -> knots_apart (nc_knots c) ->
  (0 <= id)%Z -> (id + Z.of_nat n + 2 < 2 ^ 31)%Z ->
  exists i id' lines, nc_step c (id, out) = Ok (i, (id', out ++ lines)) /\
    curve_entity lines i (nc_degree c) (map xyz (nc_cps c)) (map ww (nc_cps c)) (nc_knots c) /\
    forall u, in_curve c n u ->
      evaluate c u = Ok (curve_of_entity (nc_degree c) n (map xyz (nc_cps c)) (map ww (nc_cps c)) (nc_knots c) u).
Proof. exact curve_exported. Qed.
Print Assumptions C202_exported_curve_is_the_curve.
Example C202_example : good_curve demo 3 /\ positive_weights (nc_cps demo) /\ knots_apart (nc_knots demo) /\ in_curve demo 3 (qc 1 2).
Proof. exact demo_curve_case. Qed.

(** C203 *)
Theorem C203_exported_surface_is_the_surface :
  forall s n m id out bs id' out', good_surf s n m -> positive_surf s -> knots_apart (ns_ku s) -> knots_apart (ns_kv s) ->
  ns_step s (id, out) = Ok (bs, (id', out')) ->
  exists lines Q W, out' = out ++ lines /\ surface_entity lines bs (ns_du s) (ns_dv s) Q W (ns_ku s) (ns_kv s) /\
    forall u v, in_surf s n m u v -> ns_evaluate s u v = Ok (surface_of_entity (ns_du s) (ns_dv s) n m Q W (ns_ku s) (ns_kv s) u v).
Proof. exact surface_exported. Qed.
Print Assumptions C203_exported_surface_is_the_surface.
Example C203_example : (good_surf demo_unit 3 2 /\ unit_surf demo_unit /\ positive_surf demo_unit /\ intervals_current demo_unit /\
  clamped 3 (ns_du demo_unit) (ns_ku demo_unit) /\ clamped 2 (ns_dv demo_unit) (ns_kv demo_unit) /\ knots_apart (ns_ku demo_unit) /\ knots_apart (ns_kv demo_unit)) /\
  exists r, ns_step demo_unit (10%Z, []) = Ok r.
Proof. exact (conj demo_surface_case demo_exported). Qed.

(** C204: an edge and its curve with different ends ... *)
Theorem C204_edges_follow_their_curves_refuted :
  exists s n m bs id lines e c a b a' b',
  good_surf s n m /\ unit_surf s /\ intervals_current s /\ clamped n (ns_du s) (ns_ku s) /\ clamped m (ns_dv s) (ns_kv s) /\
  ns_step s (10%Z, []) = Ok (bs, (id, lines)) /\ edge_entity lines e a b c /\ runs_between lines c a' b' /\ (a, b) <> (a', b') /\ (a, b) <> (b', a').
Proof. exact edges_wrong. Qed.
Print Assumptions C204_edges_follow_their_curves_refuted.
(** ... and what the edges are for every surface with corners A, B, C, D: the corner D
    never appears and only the first edge starts where its curve does. *)
Theorem C204_edges_follow_their_curves_partial :
  forall s n m id out bs id' out' A B C D, good_surf s n m -> unit_surf s -> intervals_current s ->
  clamped n (ns_du s) (ns_ku s) -> clamped m (ns_dv s) (ns_kv s) -> knots_apart (ns_ku s) -> knots_apart (ns_kv s) ->
  ns_evaluate s (fst (ns_iu s)) (fst (ns_iv s)) = Ok A -> ns_evaluate s (snd (ns_iu s)) (fst (ns_iv s)) = Ok B ->
  ns_evaluate s (snd (ns_iu s)) (snd (ns_iv s)) = Ok C -> ns_evaluate s (fst (ns_iu s)) (snd (ns_iv s)) = Ok D ->
  ns_step s (id, out) = Ok (bs, (id', out')) ->
  exists lines e c0 c1 c2 c3, out' = out ++ lines /\
    edge_entity lines e A B c0 /\ runs_between lines c0 A D /\
    edge_entity lines (e + 1) B B c1 /\ runs_between lines c1 B C /\
    edge_entity lines (e + 2) B C c2 /\ runs_between lines c2 A B /\
    edge_entity lines (e + 3) C A c3 /\ runs_between lines c3 D C.
Proof. exact edges_of. Qed.
Print Assumptions C204_edges_follow_their_curves_partial.
Example C204_example : exists A B C D, ns_evaluate demo_unit (fst (ns_iu demo_unit)) (fst (ns_iv demo_unit)) = Ok A /\ ns_evaluate demo_unit (snd (ns_iu demo_unit)) (fst (ns_iv demo_unit)) = Ok B /\
  ns_evaluate demo_unit (snd (ns_iu demo_unit)) (snd (ns_iv demo_unit)) = Ok C /\ ns_evaluate demo_unit (fst (ns_iu demo_unit)) (snd (ns_iv demo_unit)) = Ok D /\
  A <> B /\ A <> C /\ A <> D /\ B <> C /\ B <> D /\ C <> D.
Proof. exact demo_corners. Qed.

(** C205: two curves with different points whose exports print the same ... *)
Theorem C205_export_keeps_numbers_refuted :
  exists c c' i id l l', good_curve c 1 /\ good_curve c' 1 /\ evaluate c 1 <> evaluate c' 1 /\
    nc_step c (10%Z, []) = Ok (i, (id, l)) /\ nc_step c' (10%Z, []) = Ok (i, (id, l')) /\ map printed l = map printed l'.
Proof. destruct seg_case as (G & G' & N & i & id & l & l' & H). exists (seg 1), (seg near1), i, id, l, l'. exact (conj G (conj G' (conj N H))). Qed.
Print Assumptions C205_export_keeps_numbers_refuted.
(** ... while every number is kept up to a relative error of 5e-6. *)
Theorem C205_export_keeps_numbers_partial :
  forall x, Qcabs (shown x - x) <= qc 5 1000000 * Qcabs x.
Proof. exact shown_near. Qed.
Print Assumptions C205_export_keeps_numbers_partial.
Example C205_example : Qceqb (shown (qc 1 3)) (qc 333333 1000000) = true /\ Qceqb (shown (qc (-1234567) 1)) (qc (-1234570) 1) = true.
Proof. split; vm_compute; reflexivity. Qed.
