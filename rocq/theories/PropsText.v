(** C230, C231: text output. *)
From Coq Require Import Ascii String List ZArith QArith Qcanon Bool.
From Verif Require Import Base ModelVec ModelAabb SpecAabb ModelBvh SpecBvh ModelText SpecText ProofText WitnessText.
Import ListNotations.
Local Open Scope string_scope.

(** C230: different vectors are printed differently. False for vec3 and vec4,
    whose operator<< leaves out commas: (1, 1, 21) and (1, 12, 1) are both written
    [1,121], whatever the stream does with other numbers. *)
Theorem C230_vector_text_refuted :
  forall num, num 1%Qc = "1" -> num (Q2Qc (12 # 1)) = "12" -> num (Q2Qc (21 # 1)) = "21" ->
  (exists a b, a <> b /\ text_vec3 num a = text_vec3 num b) /\
  (exists a b, a <> b /\ text_vec4 num a = text_vec4 num b).
Proof. exact text_refuted. Qed.
Print Assumptions C230_vector_text_refuted.

(** True for vec2, as far as the numbers themselves are written differently. *)
Theorem C230_vec2_text_partial :
  forall num a b, plain_numbers num ->
  (text_vec2 num a = text_vec2 num b <-> num (ux a) = num (ux b) /\ num (uy a) = num (uy b)).
Proof. exact text_vec2_iff. Qed.
Print Assumptions C230_vec2_text_partial.

(** ... and for lists of vec3 written by format_vec3vec. *)
Theorem C230_points_text_partial :
  forall fx, plain_numbers fx -> forall vs vs',
  (format_vec3vec fx vs = format_vec3vec fx vs' <-> map (coords_text fx) vs = map (coords_text fx) vs').
Proof. exact points_text_iff. Qed.
Print Assumptions C230_points_text_partial.

Example C230_instance : plain_numbers fixed2 /\ fixed2 1%Qc = "1.00" /\ fixed2 (q (-5) 4) = "-1.25" /\
  format_vec3vec fixed2 [V3 0 1 (q 1 4)] = "[[0.00,1.00,0.25],]".
Proof. split; [exact fixed2_plain|]. split; [apply shown_numbers|]. split; [apply shown_numbers|]. vm_compute. reflexivity. Qed.

(** C231: the printed text of a built hierarchy shows it: two hierarchies have the
    same text exactly if they have nodes at the same places, with boxes that are
    written the same. *)
Theorem C231_tree_text :
  forall fx, plain_numbers fx ->
  forall part order sort, partition_spec part -> axis_order_spec order -> sort_spec sort ->
  forall part' order' sort', partition_spec part' -> axis_order_spec order' -> sort_spec sort' ->
  forall objs bu objs' bu', exists t t',
    build_bvh part order sort objs bu = Some t /\ build_bvh part' order' sort' objs' bu' = Some t' /\
    (output_bvh_nodes fx t = output_bvh_nodes fx t' <->
     forall path, option_map (box_text fx) (box_at (node_at t path)) = option_map (box_text fx) (box_at (node_at t' path))).
Proof. exact tree_text. Qed.
Print Assumptions C231_tree_text.

(** The same for lists of objects, null pointers included. *)
Theorem C231_objects_text :
  forall fx, plain_numbers fx -> forall os os',
  (output_objects3d fx os = output_objects3d fx os' <->
   map (option_map (fun x => box_text fx (obox x))) os = map (option_map (fun x => box_text fx (obox x))) os').
Proof. exact objects_text_iff. Qed.
Print Assumptions C231_objects_text.

(** Nodes with one child, which building never makes, are not told apart. *)
Theorem C231_one_child :
  forall fx bb o c, output_bvh_nodes fx (BNode bb o c BNull) = output_bvh_nodes fx (BNode bb o BNull c).
Proof. exact one_child_text. Qed.
Print Assumptions C231_one_child.

Example C231_instance : plain_numbers fixed2 /\ output_bvh_nodes fixed2 two =
  "[[0.00,0.00,0.00],[2.00,2.00,2.00]],[[[0.00,0.00,0.00],[1.00,1.00,1.00]],[[1.50,1.50,1.50],[2.00,2.00,2.00]]]" /\
  output_objects3d fixed2 [Some (cube 1 0 1); None] = "[[[0.00,0.00,0.00],[1.00,1.00,1.00]],,]".
Proof. split; [exact fixed2_plain|]. split; [exact two_text|]. vm_compute. reflexivity. Qed.
