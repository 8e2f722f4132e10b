(** What the exported curves, surfaces and edges stand for. *)
From Coq Require Import String Ascii List ZArith QArith Qcanon Bool Lia Sorted.
From Verif Require ProofMinimize.
From Verif Require Import Base BaseFacts LoopFacts ModelVec ModelNurbs ModelMemView ModelSurface ModelStep SpecNurbs SpecCurve SpecSurface SpecStep
  ProofNurbs ProofNurbsMisc ProofNurbsTop ProofSurface ProofSurfaceTop ProofRefineMisc ProofStep ProofStepSurf ProofStepTop.
Import ListNotations.
Open Scope Z_scope.

(** ** knots *)
Lemma mult_spread rest : forall k0 count, StronglySorted Qcle (k0 :: rest) -> (forall x y, In x (k0 :: rest) -> In y (k0 :: rest) -> (x < y)%Qc -> (lit_1em8 <= y - x)%Qc) ->
  spread (map snd (mult_loop k0 count rest)) (map fst (mult_loop k0 count rest)) = repeat k0 count ++ rest.
Proof.
  induction rest as [|k rest IH]; intros k0 count HS HA; cbn [mult_loop].
  - cbn [map fst snd spread]. reflexivity.
  - inversion HS as [|? ? HS' F]; subst. inversion F as [|? ? Hk F']; subst.
    destruct (Qcabs (k - k0) <? lit_1em8)%Qc eqn:Q.
    + assert (k = k0) as ->.
      { destruct (Qcle_lt_or_eq _ _ Hk) as [L|E]; [|congruence]. exfalso. pose proof (HA k0 k (or_introl eq_refl) (or_intror (or_introl eq_refl)) L) as A. qcb.
        destruct (ProofMinimize.Qcabs_cases (k - k0)%Qc) as [[? E']|[? E']]; rewrite E' in Q; qc_lra. }
      rewrite IH; [change (repeat k0 (S count)) with (k0 :: repeat k0 count); rewrite <- (repeat_cons count k0) || rewrite repeat_cons| |].
      * rewrite <- app_assoc. reflexivity.
      * exact HS'.
      * intros x y Hx Hy. apply HA; right; assumption.
    + cbn [map fst snd spread]. rewrite IH; [reflexivity|exact HS'|]. intros x y Hx Hy. apply HA; right; assumption.
Qed.
Lemma knots_spread U : sorted U -> knots_apart U -> spread (map snd (getKnotMultiplicities U)) (map fst (getKnotMultiplicities U)) = U.
Proof.
  intros HS HA. destruct U as [|k U]; [reflexivity|]. cbn [getKnotMultiplicities]. rewrite mult_spread; [reflexivity|apply sorted_Strongly, HS|exact HA].
Qed.
Lemma bracket_listing l : bracket l = listing l.
Proof.
  unfold bracket, listing. f_equal. f_equal. induction l as [|x [|y t] IH]; [reflexivity|cbn; symmetry; apply app_nil_r|].
  change (commas (x :: y :: t)) with (x ++ txt ", " ++ commas (y :: t)). rewrite IH. cbn [flat_map]. rewrite <- !app_assoc. reflexivity.
Qed.
Lemma knots_texts U : knots_text U = (ints (map snd (getKnotMultiplicities U)), nums (map fst (getKnotMultiplicities U))).
Proof. unfold knots_text, ints, nums. rewrite !bracket_listing, !map_map. reflexivity. Qed.

(** ** curves *)
Lemma has_point_line p : point_text (vx p) (vy p) (vz p) = txt "CARTESIAN_POINT('', " ++ listing [[Num (vx p)]; [Num (vy p)]; [Num (vz p)]] ++ txt ")".
Proof. reflexivity. Qed.
Lemma block_entity c id0 b i : curve_block c id0 b -> sorted (nc_knots c) -> knots_apart (nc_knots c) -> (exists l, last b (0, []) = l /\ fst l = i) ->
  forall lines, incl b lines -> curve_entity lines i (nc_degree c) (map xyz (nc_cps c)) (map ww (nc_cps c)) (nc_knots c).
Proof.
  intros (pts & -> & F & M) HS HA (l & <- & <-) lines I. rewrite last_last. cbn [fst]. unfold curve_entity.
  exists (map fst pts), (map snd (getKnotMultiplicities (nc_knots c))), (map fst (getKnotMultiplicities (nc_knots c))).
  split; [|split; [|split; [rewrite !map_length; reflexivity|apply knots_spread; assumption]]].
  - match goal with |- In (_, ?t) _ => replace t with (curve_text c (map fst pts)) end; [apply I, in_app_iff; right; left; reflexivity|].
    replace (nums (map ww (nc_cps c))) with (bracket (map (fun q => [Num (ww q)]) (nc_cps c))) by (unfold nums; rewrite bracket_listing, map_map; reflexivity).
    rewrite <- (bracket_listing (map (fun r => [Ref r]) (map fst pts))). unfold curve_text. rewrite knots_texts. unfold bracket at 2. rewrite <- !app_assoc. reflexivity.
  - assert (incl pts lines) as I' by (intros x Hx; apply I, in_app_iff; left; exact Hx). clear - F I'. induction F as [|[j t] q pts P E _ IH]; cbn [map]; constructor.
    + unfold has_point. apply I'. left. f_equal. cbn [snd] in E. rewrite E. reflexivity.
    + apply IH. intros x Hx. apply I'. right. exact Hx.
Qed.

Lemma qsum_ext2 f g n : (forall i, (i < n)%nat -> f i = g i) -> qsum f n = qsum g n.
Proof. induction n as [|n IH]; intros H; [reflexivity|]. cbn [qsum]. rewrite IH by (intros; apply H; lia). rewrite H by lia. reflexivity. Qed.
Lemma v3_div_ext (a b c w a' b' c' w' : Qc) : a = a' -> b = b' -> c = c' -> w = w' -> V3 (a / w) (b / w) (c / w) = V3 (a' / w') (b' / w') (c' / w').
Proof. intros -> -> -> ->. reflexivity. Qed.
Lemma entity_curve U n p P u : curve_of_entity p n (map xyz P) (map ww P) U u = rational_point U n p P u.
Proof.
  unfold curve_of_entity, rational_point, weight_at, weighted_at. cbv zeta.
  assert (forall i, nth i (map ww P) 0%Qc = ww (nth i P (V4 0 0 0 0))) as W by (intros i; exact (map_nth ww P (V4 0 0 0 0) i)).
  assert (forall i, nth i (map xyz P) (V3 0 0 0) = xyz (nth i P (V4 0 0 0 0))) as X by (intros i; exact (map_nth xyz P (V4 0 0 0 0) i)).
  apply v3_div_ext; apply qsum_ext2; intros i _; rewrite ?X, ?W; reflexivity.
Qed.

Lemma emit_ok body id out : - 2 ^ 31 <= id -> id + 1 < 2 ^ 31 -> emit body (id, out) = Ok (id, (id + 1, out ++ [(id, body (id + 1))])).
Proof.
  intros H1 H2. unfold emit, int_op. replace (- 2 ^ 31 <=? id + 1) with true by (symmetry; apply Z.leb_le; lia). replace (id + 1 <? 2 ^ 31) with true by (symmetry; apply Z.ltb_lt; lia). reflexivity.
Qed.
Lemma curve_points_ok P : forall id out, 0 <= id -> id + Z.of_nat (List.length P) < 2 ^ 31 -> exists ids out', curve_points P (id, out) = Ok (ids, (id + Z.of_nat (List.length P), out')).
Proof.
  induction P as [|q P IH]; intros id out H1 H2; cbn [curve_points List.length] in *; [do 2 eexists; rewrite Z.add_0_r; reflexivity|].
  rewrite emit_ok by lia. cbn [bind]. destruct (IH (id + 1) (out ++ [(id, point_text (wx q) (wy q) (wz q))])) as (ids & out' & E); [lia|lia|]. rewrite E. cbn [bind].
  do 2 eexists. replace (id + Z.of_nat (S (List.length P))) with (id + 1 + Z.of_nat (List.length P)) by lia. reflexivity.
Qed.
Lemma nc_step_ok c id out : 0 <= id -> id + Z.of_nat (List.length (nc_cps c)) + 1 < 2 ^ 31 ->
  exists out', nc_step c (id, out) = Ok (id + Z.of_nat (List.length (nc_cps c)), (id + Z.of_nat (List.length (nc_cps c)) + 1, out')).
Proof.
  intros H1 H2. unfold nc_step. destruct (curve_points_ok (nc_cps c) id out) as (ids & out' & E); [lia|lia|]. rewrite E. cbn [bind]. destruct (knots_text (nc_knots c)). rewrite emit_ok by lia. eexists. reflexivity.
Qed.

Lemma curve_exported c n id out : good_curve c n -> positive_weights (nc_cps c) -> knots_apart (nc_knots c) -> 0 <= id -> id + Z.of_nat n + 2 < 2 ^ 31 ->
  exists i id' lines, nc_step c (id, out) = Ok (i, (id', out ++ lines)) /\
    curve_entity lines i (nc_degree c) (map xyz (nc_cps c)) (map ww (nc_cps c)) (nc_knots c) /\
    forall u, in_curve c n u -> evaluate c u = Ok (curve_of_entity (nc_degree c) n (map xyz (nc_cps c)) (map ww (nc_cps c)) (nc_knots c) u).
Proof.
  intros G PW KA H1 H2. pose proof G as (L & V & D). destruct (nc_step_ok c id out) as (out' & E); [lia|rewrite L; lia|].
  destruct (nc_step_adds _ _ _ _ E) as (new & [A1 A2] & Ei & B & LB). cbn [fst snd] in *. injection A1 as Eid ->. do 3 eexists. split; [exact E|]. split.
  - pose proof V as (_ & _ & HS & _). eapply block_entity; [exact B|exact HS|exact KA| |intros x Hx; exact Hx]. destruct B as (pts & -> & F & M). rewrite last_last. eexists. split; [reflexivity|]. cbn [fst].
    rewrite app_length in LB. cbn in LB. f_equal. f_equal. lia.
  - intros u Hu. rewrite entity_curve. apply evaluate_top; assumption.
Qed.

(** ** surfaces *)
Definition point_of (q : vec4) : vec3 := V3 (wx q / ww q) (wy q / ww q) (wz q / ww q).
Lemma used_ok s n m : good_surf s n m -> used s = Ok (ns_cps s).
Proof.
  intros (L & R & SU & SV & _). unfold used. rewrite SU, SV.
  rewrite (mapM_map _ (fun i => map (fun j => cp (ns_cps s) i j) (seq 0 (S m)))).
  - f_equal. apply nth_ext with (d := []) (d' := []); [rewrite map_length, seq_length; lia|]. intros i Hi. rewrite map_length, seq_length in Hi.
    rewrite (nth_indep _ [] ((fun i => map (fun j => cp (ns_cps s) i j) (seq 0 (S m))) O)) by (rewrite map_length, seq_length; lia).
    rewrite (map_nth (fun i => map (fun j => cp (ns_cps s) i j) (seq 0 (S m)))), seq_nth by lia. cbn [plus]. assert (List.length (nth i (ns_cps s) []) = S m) as LR by (apply R, nth_In; lia).
    apply nth_ext with (d := V4 0 0 0 0) (d' := V4 0 0 0 0); [rewrite map_length, seq_length; lia|]. intros j Hj. rewrite map_length, seq_length in Hj.
    rewrite (nth_indep _ _ ((fun j => cp (ns_cps s) i j) O)) by (rewrite map_length, seq_length; lia). rewrite (map_nth (fun j => cp (ns_cps s) i j)), seq_nth by lia. reflexivity.
  - intros i Hi. apply in_seq in Hi. apply mapM_map. intros j Hj. apply in_seq in Hj. apply get2_nat; [lia|]. rewrite R; [lia|apply nth_In; lia].
Qed.
Lemma cart_ok q p : cart q = Ok p -> p = point_of q /\ ww q <> 0%Qc.
Proof.
  unfold cart, qdiv. destruct (Qceqb (ww q) 0) eqn:E; cbn [bind]; [discriminate|]. intros [= <-]. split; [reflexivity|]. qcb. assumption.
Qed.
Lemma surface_text_spec s P ids : surface_text s P ids =
  txt "RATIONAL_B_SPLINE_SURFACE_WITH_KNOTS('', " ++ [Int (Z.of_nat (ns_du s))] ++ txt ", " ++ [Int (Z.of_nat (ns_dv s))] ++ txt ", "
      ++ listing (map (fun row => listing (map (fun r => [Ref r]) row)) ids)
      ++ txt ", .UNSPECIFIED., .F., .F., .F., " ++ ints (map snd (getKnotMultiplicities (ns_ku s))) ++ txt ", " ++ nums (map fst (getKnotMultiplicities (ns_ku s)))
      ++ txt ", " ++ ints (map snd (getKnotMultiplicities (ns_kv s))) ++ txt ", " ++ nums (map fst (getKnotMultiplicities (ns_kv s)))
      ++ txt ", .UNSPECIFIED., " ++ listing (map nums (map (map ww) P)) ++ txt ")".
Proof.
  unfold surface_text. rewrite !knots_texts, !bracket_listing. rewrite map_map.
  rewrite (map_ext (fun row => bracket (map (fun id => [Ref id]) row)) (fun row => listing (map (fun r => [Ref r]) row))) by (intros; apply bracket_listing).
  rewrite (map_ext (fun row => bracket (map (fun q => [Num (ww q)]) row)) (fun row => nums (map ww row))) by (intros; unfold nums; rewrite bracket_listing, map_map; reflexivity).
  reflexivity.
Qed.
Lemma surface_exported s n m id out bs id' out' : good_surf s n m -> positive_surf s -> knots_apart (ns_ku s) -> knots_apart (ns_kv s) ->
  ns_step s (id, out) = Ok (bs, (id', out')) ->
  exists lines Q W, out' = out ++ lines /\ surface_entity lines bs (ns_du s) (ns_dv s) Q W (ns_ku s) (ns_kv s) /\
    forall u v, in_surf s n m u v -> ns_evaluate s u v = Ok (surface_of_entity (ns_du s) (ns_dv s) n m Q W (ns_ku s) (ns_kv s) u v).
Proof.
  intros G PW KU KV E. destruct (ns_step_adds _ _ _ _ E) as (new & [A1 A2] & X). cbn [fst snd] in *. injection A1 as -> ->.
  destruct X as (P & news & bnd & blocks & ps & c0 & c1 & c2 & c3 & v0 & v1 & v2 & v3 & EP & F & _ & _ & _ & _ & _ & _ & K). cbv zeta in K. destruct K as (_ & En).
  rewrite (used_ok s n m G) in EP. injection EP as <-. pose proof G as (LP & LR & SU & SV & (_ & _ & SKU & _) & (_ & _ & SKV & _) & _).
  exists new, (map (map point_of) (ns_cps s)), (map (map ww) (ns_cps s)). split; [reflexivity|]. split.
  - exists (map (map fst) news). do 4 eexists. split; [rewrite En; apply in_app_iff; right; left; f_equal; apply surface_text_spec|].
    rewrite !map_length. split; [|split; [reflexivity|split; [reflexivity|split; apply knots_spread; assumption]]].
    assert (incl (concat news) new) as I by (intros x Hx; rewrite En; apply in_app_iff; left; exact Hx). clear - F I.
    induction F as [|n1 row news P F _ IH]; cbn [map]; constructor.
    + assert (incl n1 new) as I1 by (intros x Hx; apply I; cbn [concat]; apply in_app_iff; left; exact Hx). clear - F I1. induction F as [|[i t] q n1 row (p & Ec & Et) _ IH]; cbn [map]; constructor.
      * destruct (cart_ok _ _ Ec) as [-> _]. apply I1. left. cbn [snd] in Et. rewrite Et. reflexivity.
      * apply IH. intros x Hx. apply I1. right. exact Hx.
    + apply IH. intros x Hx. apply I. cbn [concat]. apply in_app_iff. right. exact Hx.
  - intros u v H. destruct (surface_evaluate_top s n m u v G H PW) as [-> _]. f_equal. unfold surf_point, surface_of_entity, tensor. cbv zeta.
    assert (forall i j, nth j (nth i (map (map ww) (ns_cps s)) []) 0%Qc = ww (cp (ns_cps s) i j)) as WW.
    { intros i j. change (nth i (map (map ww) (ns_cps s)) []) with (nth i (map (map ww) (ns_cps s)) (map ww [])). rewrite map_nth. exact (map_nth ww (nth i (ns_cps s) []) (V4 0 0 0 0) j). }
    assert (forall i j, (i < S n)%nat -> (j < S m)%nat -> nth j (nth i (map (map point_of) (ns_cps s)) []) (V3 0 0 0) = point_of (cp (ns_cps s) i j) /\ ww (cp (ns_cps s) i j) <> 0%Qc) as PP.
    { intros i j Hi Hj. assert (In (nth i (ns_cps s) []) (ns_cps s)) as I1 by (apply nth_In; lia). pose proof (LR _ I1) as L1. split.
      - change (nth i (map (map point_of) (ns_cps s)) []) with (nth i (map (map point_of) (ns_cps s)) (map point_of [])). rewrite map_nth. rewrite (nth_indep _ _ (point_of (V4 0 0 0 0))) by (rewrite map_length; lia). rewrite map_nth. reflexivity.
      - assert (0 < ww (cp (ns_cps s) i j))%Qc as Hw by (eapply PW; [exact I1|apply nth_In; lia]). intros Z. rewrite Z in Hw. discriminate Hw. }
    apply v3_div_ext; apply qsum_ext2; intros i Hi; apply qsum_ext2; intros j Hj; destruct (PP i j Hi Hj) as [EP NZ]; rewrite ?EP, ?WW; unfold point_of; cbn [vx vy vz]; try reflexivity; field; exact NZ.
Qed.
