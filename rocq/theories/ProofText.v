(** Proofs about text output (C230, C231). *)
From Coq Require Import Ascii String List ZArith QArith Qcanon Bool Lia.
From Verif Require Import Base ModelVec ModelAabb SpecAabb ModelBvh SpecBvh ProofBvh ModelText SpecText.
Import ListNotations.
Local Open Scope string_scope.

Lemma sapp_assoc (a b c : string) : (a ++ b) ++ c = a ++ (b ++ c).
Proof. induction a as [|x a IH]; cbn; [reflexivity|rewrite IH; reflexivity]. Qed.
Lemma sapp_nil (a : string) : a ++ "" = a.
Proof. induction a as [|x a IH]; cbn; [reflexivity|rewrite IH; reflexivity]. Qed.

(** Texts that begin with a structuring character, or are empty. *)
Definition stop (s : string) : Prop := match s with EmptyString => True | String c _ => special c = true end.

Lemma split_plain a b x y : plain a -> plain b -> stop x -> stop y -> a ++ x = b ++ y -> a = b /\ x = y.
Proof.
  revert b; induction a as [|c a IH]; intros b Ha Hb Hx Hy E; destruct b as [|d b]; cbn in *.
  - auto.
  - subst x. cbn in Hx. destruct Hb as [Hd _]. congruence.
  - subst y. cbn in Hy. destruct Ha as [Hc _]. congruence.
  - injection E as -> E. destruct Ha as [_ Ha], Hb as [_ Hb].
    destruct (IH b Ha Hb Hx Hy E) as [-> ->]. auto.
Qed.

Lemma text_vec2_iff num a b : plain_numbers num ->
  (text_vec2 num a = text_vec2 num b <-> num (ux a) = num (ux b) /\ num (uy a) = num (uy b)).
Proof.
  intros P. unfold text_vec2. split.
  - cbn. intros E. injection E as E.
    apply split_plain in E; [|apply P|apply P|reflexivity|reflexivity]. destruct E as [E1 E].
    injection E as E. apply split_plain in E; [|apply P|apply P|reflexivity|reflexivity]. tauto.
  - intros [-> ->]. reflexivity.
Qed.

Lemma text_vec3_clash num : num 1%Qc = "1" -> num (Q2Qc (12 # 1)) = "12" -> num (Q2Qc (21 # 1)) = "21" ->
  text_vec3 num (V3 1 1 (Q2Qc (21 # 1))) = text_vec3 num (V3 1 (Q2Qc (12 # 1)) 1).
Proof. intros H1 H2 H3. unfold text_vec3. cbn [vx vy vz]. rewrite H1, H2, H3. reflexivity. Qed.
Lemma text_vec4_clash num : num 1%Qc = "1" -> num (Q2Qc (12 # 1)) = "12" -> num (Q2Qc (21 # 1)) = "21" ->
  text_vec4 num (V4 1 1 (Q2Qc (21 # 1)) 1) = text_vec4 num (V4 1 (Q2Qc (12 # 1)) 1 1).
Proof. intros H1 H2 H3. unfold text_vec4. cbn [wx wy wz ww]. rewrite H1, H2, H3. reflexivity. Qed.
Lemma vec3_differ : V3 1 1 (Q2Qc (21 # 1)) <> V3 1 (Q2Qc (12 # 1)) 1.
Proof. intros E. apply (f_equal vy) in E. apply (f_equal this) in E. vm_compute in E. discriminate. Qed.
Lemma vec4_differ : V4 1 1 (Q2Qc (21 # 1)) 1 <> V4 1 (Q2Qc (12 # 1)) 1 1.
Proof. intros E. apply (f_equal wy) in E. apply (f_equal this) in E. vm_compute in E. discriminate. Qed.

Lemma text_refuted num : num 1%Qc = "1" -> num (Q2Qc (12 # 1)) = "12" -> num (Q2Qc (21 # 1)) = "21" ->
  (exists a b, a <> b /\ text_vec3 num a = text_vec3 num b) /\
  (exists a b, a <> b /\ text_vec4 num a = text_vec4 num b).
Proof.
  intros H1 H2 H3. split; do 2 eexists; (split; [|first [apply text_vec3_clash|apply text_vec4_clash]; assumption]).
  - exact vec3_differ.
  - exact vec4_differ.
Qed.

Lemma cons_inj c d a b : String c a = String d b -> a = b.
Proof. intros E. injection E as _ E. exact E. Qed.
Ltac uncons E := repeat match type of E with String _ _ = String _ _ => apply cons_inj in E end.

Section Fx.
Variable fx : Qc -> string.
Hypothesis P : plain_numbers fx.

Lemma format_vec3_cancel a b x y : format_vec3 fx a ++ x = format_vec3 fx b ++ y ->
  coords_text fx a = coords_text fx b /\ x = y.
Proof.
  unfold format_vec3. rewrite !sapp_assoc. cbn. intros E. uncons E.
  rewrite ?sapp_assoc in E. apply split_plain in E; [|apply P|apply P|reflexivity|reflexivity]. destruct E as [E1 E].
  cbn in E. uncons E.
  rewrite ?sapp_assoc in E. apply split_plain in E; [|apply P|apply P|reflexivity|reflexivity]. destruct E as [E2 E].
  cbn in E. uncons E.
  rewrite ?sapp_assoc in E. apply split_plain in E; [|apply P|apply P|reflexivity|reflexivity]. destruct E as [E3 E].
  cbn in E. uncons E. unfold coords_text. rewrite E1, E2, E3. auto.
Qed.
Lemma format_vec3_det a b : coords_text fx a = coords_text fx b -> format_vec3 fx a = format_vec3 fx b.
Proof. unfold coords_text, format_vec3. intros E. injection E as -> -> ->. reflexivity. Qed.

Lemma output_aabb_cancel a b x y : output_aabb fx a ++ x = output_aabb fx b ++ y ->
  box_text fx a = box_text fx b /\ x = y.
Proof.
  unfold output_aabb. rewrite !sapp_assoc. cbn [append]. intros E. uncons E.
  rewrite ?sapp_assoc in E. apply format_vec3_cancel in E. destruct E as [E1 E].
  cbn [append] in E. uncons E. rewrite ?sapp_assoc in E. apply format_vec3_cancel in E. destruct E as [E2 E].
  cbn [append] in E. uncons E. unfold box_text. rewrite E1, E2. auto.
Qed.
Lemma output_aabb_det a b : box_text fx a = box_text fx b -> output_aabb fx a = output_aabb fx b.
Proof.
  unfold box_text, output_aabb. intros E.
  assert (coords_text fx (bmin a) = coords_text fx (bmin b) /\ coords_text fx (bmax a) = coords_text fx (bmax b)) as [E1 E2].
  { unfold coords_text in *. cbn in E. injection E as -> -> -> -> -> ->. auto. }
  rewrite (format_vec3_det _ _ E1), (format_vec3_det _ _ E2). reflexivity.
Qed.
Lemma output_aabb_head a : exists s c, special c = false /\ output_aabb fx a = "[[" ++ s /\
  (match s with String d _ => special d = false \/ d = ","%char | EmptyString => False end).
Proof.
  unfold output_aabb, format_vec3. cbn [append]. eexists. exists "a"%char. split; [reflexivity|]. split; [reflexivity|].
  specialize (P (vx (bmin a))). destruct (fx (vx (bmin a))) as [|d r]; cbn; [right; reflexivity|]. left. apply P.
Qed.

(** Full trees: no node has exactly one child. *)
Fixpoint full (t : bvh) : Prop :=
  match t with
  | BNull => False
  | BNode _ _ BNull BNull => True
  | BNode _ _ l r => full l /\ full r
  end.
Lemma full_cases bb o l r : full (BNode bb o l r) -> (l = BNull /\ r = BNull) \/ (full l /\ full r).
Proof. destruct l, r; cbn; tauto. Qed.

(** What can follow the text of a tree. *)
Definition follow (s : string) : Prop :=
  s = "" \/ (exists r, s = "]" ++ r) \/
  (exists d r, s = ",[[" ++ String d r /\ d <> "["%char).

Lemma output_head t : full t -> exists d r, output_bvh_nodes fx t = "[[" ++ String d r /\ d <> "["%char.
Proof.
  destruct t as [|bb o l r]; [intros []|]. intros _. destruct (output_aabb_head bb) as (s & c & _ & E & H).
  destruct s as [|d s]; [destruct H|]. cbn [output_bvh_nodes]. rewrite E. cbn [append].
  do 2 eexists. split; [reflexivity|]. destruct H as [H| ->]; [intros ->; discriminate|discriminate].
Qed.
Lemma follow_sep t s : full t -> follow ("," ++ output_bvh_nodes fx t ++ s).
Proof.
  intros H. destruct (output_head t H) as (d & r & E & D). rewrite E. right; right. cbn. do 2 eexists. split; [reflexivity|exact D].
Qed.
Lemma follow_close s : follow ("]" ++ s).
Proof. right; left. eexists; reflexivity. Qed.

(** The text of an inner node after its box. *)
Lemma output_inner bb o l r : full l -> full r ->
  output_bvh_nodes fx (BNode bb o l r) =
  output_aabb fx bb ++ ",[" ++ output_bvh_nodes fx l ++ "," ++ output_bvh_nodes fx r ++ "]".
Proof. destruct l; [intros []|]. destruct r; [intros _ []|]. reflexivity. Qed.
Lemma output_leaf bb o : output_bvh_nodes fx (BNode bb o BNull BNull) = output_aabb fx bb.
Proof. exact (sapp_nil (output_aabb fx bb)). Qed.

Lemma follow_not_inner t s x : follow s -> full t -> s <> ",[" ++ output_bvh_nodes fx t ++ x.
Proof.
  intros H F E. destruct (output_head t F) as (d & r & E' & D). rewrite E' in E. cbn in E.
  destruct H as [->|[(r' & ->)|(d' & r' & -> & D')]]; cbn in E; try discriminate. injection E as E1 E2. congruence.
Qed.

(** Same shape and same texts. *)
Fixpoint same_text (t t' : bvh) : Prop :=
  match t, t' with
  | BNull, BNull => True
  | BNode b _ l r, BNode b' _ l' r' => box_text fx b = box_text fx b' /\ same_text l l' /\ same_text r r'
  | _, _ => False
  end.

Lemma output_cancel t : full t -> forall t' s s', full t' -> follow s -> follow s' ->
  output_bvh_nodes fx t ++ s = output_bvh_nodes fx t' ++ s' -> same_text t t' /\ s = s'.
Proof.
  induction t as [|bb o l IHl r IHr]; intros F t' s s' F' Hs Hs' E; [destruct F|].
  destruct t' as [|bb' o' l' r']; [destruct F'|].
  destruct (full_cases _ _ _ _ F) as [[-> ->]|[Fl Fr]]; destruct (full_cases _ _ _ _ F') as [[-> ->]|[Fl' Fr']];
    rewrite ?output_leaf, ?(output_inner _ _ _ _ Fl Fr), ?(output_inner _ _ _ _ Fl' Fr') in E; rewrite ?sapp_assoc in E;
    apply output_aabb_cancel in E; destruct E as [Eb E].
  - cbn. auto.
  - exfalso. exact (follow_not_inner _ _ _ Hs Fl' E).
  - exfalso. exact (follow_not_inner _ _ _ Hs' Fl (eq_sym E)).
  - cbn [append] in E. uncons E.
    apply IHl in E; [|exact Fl|exact Fl'|apply (follow_sep _ _ Fr)|apply (follow_sep _ _ Fr')].
    destruct E as [S1 E]. cbn [append] in E. uncons E. rewrite ?sapp_assoc in E.
    apply IHr in E; [|exact Fr|exact Fr'|apply follow_close|apply follow_close].
    destruct E as [S2 E]. cbn in E. uncons E. cbn. auto.
Qed.

Lemma same_text_det t : forall t', same_text t t' -> output_bvh_nodes fx t = output_bvh_nodes fx t'.
Proof.
  induction t as [|bb o l IHl r IHr]; intros [|bb' o' l' r'] H; cbn in H; try tauto. destruct H as (H & Hl & Hr).
  cbn [output_bvh_nodes]. rewrite (output_aabb_det _ _ H), (IHl _ Hl), (IHr _ Hr).
  assert (N1 : is_null l = is_null l') by (destruct l, l'; cbn in Hl; try tauto; reflexivity).
  assert (N2 : is_null r = is_null r') by (destruct r, r'; cbn in Hr; try tauto; reflexivity).
  rewrite N1, N2. reflexivity.
Qed.

Lemma same_text_path t : forall t', same_text t t' <->
  forall path, option_map (box_text fx) (box_at (node_at t path)) = option_map (box_text fx) (box_at (node_at t' path)).
Proof.
  assert (N : forall path, node_at BNull path = BNull) by (intros [|b p]; reflexivity).
  induction t as [|bb o l IHl r IHr]; intros [|bb' o' l' r']; cbn [same_text].
  - tauto.
  - split; [tauto|]. intros H. specialize (H []). discriminate.
  - split; [tauto|]. intros H. specialize (H []). discriminate.
  - rewrite IHl, IHr. split.
    + intros (H & Hl & Hr) [|[|] p]; cbn [node_at box_at option_map]; [rewrite H; reflexivity|apply Hr|apply Hl].
    + intros H. split; [specialize (H []); cbn [node_at box_at option_map] in H; congruence|]. split; intros p.
      * exact (H (false :: p)).
      * exact (H (true :: p)).
Qed.

Lemma node_in_full t : t <> BNull ->
  (forall bb o l r, node_in t bb o l r -> (o = None -> l <> BNull /\ r <> BNull) /\ (o <> None -> l = BNull /\ r = BNull)) ->
  full t.
Proof.
  induction t as [|bb o l IHl r IHr]; intros Hn H; [congruence|].
  destruct (H bb o l r) as [H1 H2]; [constructor|]. destruct o as [x|].
  - destruct H2 as [-> ->]; [discriminate|]. exact I.
  - destruct H1 as [Nl Nr]; [reflexivity|].
    assert (Fl : full l). { apply IHl; [exact Nl|]. intros b' o' l' r' Hi. apply (H b'). constructor; exact Hi. }
    assert (Fr : full r). { apply IHr; [exact Nr|]. intros b' o' l' r' Hi. apply (H b'). solve [constructor; exact Hi | constructor 3; exact Hi]. }
    destruct l; [congruence|]. destruct r; [congruence|]. split; assumption.
Qed.
Lemma output_null t : full t -> output_bvh_nodes fx t <> "".
Proof. intros F E. destruct (output_head t F) as (d & r & E' & _). rewrite E' in E. discriminate. Qed.

Lemma tree_text_iff t t' : (t = BNull \/ full t) -> (t' = BNull \/ full t') ->
  (output_bvh_nodes fx t = output_bvh_nodes fx t' <->
   forall path, option_map (box_text fx) (box_at (node_at t path)) = option_map (box_text fx) (box_at (node_at t' path))).
Proof.
  intros H H'. rewrite <- same_text_path. split; [|apply same_text_det].
  intros E. destruct H as [->|F], H' as [->|F'].
  - exact I.
  - exfalso. apply (output_null _ F'). symmetry; exact E.
  - exfalso. apply (output_null _ F). exact E.
  - apply (output_cancel t F t' "" "" F'); [left; reflexivity|left; reflexivity|]. rewrite !sapp_nil. exact E.
Qed.

(** Lists. *)
Lemma objects_loop_app os : forall s, objects_loop fx os s = s ++ objects_loop fx os "".
Proof.
  induction os as [|o r IH]; intros s; cbn [objects_loop]; [rewrite sapp_nil; reflexivity|].
  rewrite IH, (IH ("" ++ _)). rewrite !sapp_assoc. reflexivity.
Qed.
Lemma format_loop_app vs : forall s, format_loop fx vs s = s ++ format_loop fx vs "".
Proof.
  induction vs as [|o r IH]; intros s; cbn [format_loop]; [rewrite sapp_nil; reflexivity|].
  rewrite IH, (IH (("" ++ _) ++ _)). rewrite !sapp_assoc. reflexivity.
Qed.
Definition null_or_box (o : option obj) : option (list string) := option_map (fun x => box_text fx (obox x)) o.

Lemma objects_cancel os : forall os', objects_loop fx os "" ++ "]" = objects_loop fx os' "" ++ "]" ->
  map null_or_box os = map null_or_box os'.
Proof.
  assert (B : forall a x, output_aabb fx a ++ x <> "]") by (intros a x E; unfold output_aabb in E; cbn in E; discriminate).
  assert (B' : forall a x y, output_aabb fx a ++ x <> "," ++ y) by (intros a x y E; unfold output_aabb in E; cbn in E; discriminate).
  induction os as [|o r IH]; intros [|o' r'] E; [reflexivity| | |]; cbn [objects_loop] in E; rewrite ?(objects_loop_app _ ("" ++ _)) in E;
    cbn [append] in E; rewrite ?sapp_assoc in E.
  - exfalso. destruct o' as [x|]; cbn [output_object3d] in E; [exact (B _ _ (eq_sym E))|discriminate E].
  - exfalso. destruct o as [x|]; cbn [output_object3d] in E; [exact (B _ _ E)|discriminate E].
  - destruct o as [x|], o' as [x'|]; cbn [output_object3d] in E.
    + apply output_aabb_cancel in E. destruct E as [E1 E]. cbn [append] in E. uncons E.
      cbn [map null_or_box option_map]. rewrite E1, (IH _ E). reflexivity.
    + exfalso. exact (B' _ _ _ E).
    + exfalso. exact (B' _ _ _ (eq_sym E)).
    + cbn [append] in E. uncons E. cbn. rewrite (IH _ E). reflexivity.
Qed.
Lemma objects_det os : forall os', map null_or_box os = map null_or_box os' -> objects_loop fx os "" = objects_loop fx os' "".
Proof.
  induction os as [|o r IH]; intros [|o' r'] E; try discriminate; [reflexivity|]. cbn [map] in E. injection E as E1 E.
  cbn [objects_loop]. rewrite objects_loop_app, (objects_loop_app r'), (IH _ E).
  replace (output_object3d fx o') with (output_object3d fx o); [reflexivity|].
  destruct o as [x|], o' as [x'|]; try discriminate; [|reflexivity]. apply output_aabb_det. unfold null_or_box, option_map in E1. congruence.
Qed.
Lemma objects_text_iff os os' : output_objects3d fx os = output_objects3d fx os' <->
  map (option_map (fun x => box_text fx (obox x))) os = map (option_map (fun x => box_text fx (obox x))) os'.
Proof.
  unfold output_objects3d. split; intros E.
  - cbn [append] in E. uncons E. exact (objects_cancel _ _ E).
  - rewrite (objects_det os os' E). reflexivity.
Qed.

Lemma points_text_iff vs vs' : format_vec3vec fx vs = format_vec3vec fx vs' <->
  map (coords_text fx) vs = map (coords_text fx) vs'.
Proof.
  unfold format_vec3vec. rewrite (format_loop_app vs "["), (format_loop_app vs' "["). rewrite !sapp_assoc. split.
  - cbn [append]. intros E. uncons E. revert vs' E.
    assert (B : forall a x, format_vec3 fx a ++ x <> "]") by (intros a x E; unfold format_vec3 in E; cbn in E; discriminate).
    induction vs as [|o r IH]; intros [|o' r'] E; [reflexivity| | |]; cbn [format_loop] in E; rewrite ?(format_loop_app _ (_ ++ _)) in E;
      cbn [append] in E; rewrite ?sapp_assoc in E.
    + exfalso. exact (B _ _ (eq_sym E)).
    + exfalso. exact (B _ _ E).
    + apply format_vec3_cancel in E. destruct E as [E1 E]. cbn [append] in E. uncons E.
      cbn [map]. rewrite E1, (IH _ E). reflexivity.
  - intros E. f_equal. f_equal. revert vs' E. induction vs as [|o r IH]; intros [|o' r'] E; try discriminate; [reflexivity|].
    cbn [map] in E. injection E as E1 E2 E3 E. cbn [format_loop]. rewrite format_loop_app, (format_loop_app r'), (IH _ E).
    rewrite (format_vec3_det o o'); [reflexivity|]. unfold coords_text. congruence.
Qed.
End Fx.

Lemma tree_text fx : plain_numbers fx ->
  forall part order sort, partition_spec part -> axis_order_spec order -> sort_spec sort ->
  forall part' order' sort', partition_spec part' -> axis_order_spec order' -> sort_spec sort' ->
  forall objs bu objs' bu', exists t t',
    build_bvh part order sort objs bu = Some t /\ build_bvh part' order' sort' objs' bu' = Some t' /\
    (output_bvh_nodes fx t = output_bvh_nodes fx t' <->
     forall path, option_map (box_text fx) (box_at (node_at t path)) = option_map (box_text fx) (box_at (node_at t' path))).
Proof.
  intros P part order sort H1 H2 H3 part' order' sort' H1' H2' H3' objs bu objs' bu'.
  destruct (build_stores_once part order sort H1 H2 H3 objs bu) as (t & E & _ & _ & N).
  destruct (build_stores_once part' order' sort' H1' H2' H3' objs' bu') as (t' & E' & _ & _ & N').
  exists t, t'. split; [exact E|]. split; [exact E'|]. apply tree_text_iff; [exact P| |].
  - destruct t; [left; reflexivity|right]. apply node_in_full; [discriminate|exact N].
  - destruct t'; [left; reflexivity|right]. apply node_in_full; [discriminate|exact N'].
Qed.

Lemma one_child_text fx bb o c : output_bvh_nodes fx (BNode bb o c BNull) = output_bvh_nodes fx (BNode bb o BNull c).
Proof. cbn. destruct c; [reflexivity|]. cbn [is_null negb orb andb append]. rewrite ?sapp_nil. reflexivity. Qed.
